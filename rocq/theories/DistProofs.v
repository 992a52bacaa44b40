(** Proofs about Distance: the values. *)
From Verif Require Import DistModel DistSpec MatProofs MatDotProofs MatProofs5 DataProofs DescProofs ColProofs ColProofs2 ColProofs3 CorProofs CorProofs2 CorProofs3 CorRealProofs CorRealProofs2 CorRealProofs3.
Local Open Scope Z_scope.

Lemma sum_loop_nan f l : forall s, fold_left (fun s p => match gap p with None => s | Some d => s +f Some (f d) end) l (Some s) = Some (s + qsum (map (fun p => f (fst p - snd p)%Qc) (pairs_of l)))%Qc.
Proof.
  induction l as [|[[a|] [b|]] t IH]; intros s; cbn [fold_left pairs_of flat_map map app]; try exact (IH s).
  - f_equal. change (qsum []) with 0%Qc. ring.
  - cbn [gap fst snd fsub fadd fl2]. rewrite IH. cbn [map fst snd]. change (qsum (?u :: ?w)) with (u + qsum w)%Qc. f_equal. unfold pairs_of. ring.
Qed.
Lemma sum_loop_none f l : fold_left (fun s p => match gap p with None => None | Some d => s +f Some (f d) end) l None = None.
Proof. induction l as [|p t IH]; auto. cbn [fold_left]. destruct (gap p); auto. Qed.
Lemma sum_loop_all f l : existsb is_nan (map fst l) || existsb is_nan (map snd l) = true -> forall s, fold_left (fun s p => match gap p with None => None | Some d => s +f Some (f d) end) l (Some s) = None.
Proof.
  induction l as [|[[a|] [b|]] t IH]; intros H s; cbn [fold_left]; try discriminate; try (apply sum_loop_none). cbn [gap fst snd fsub fadd fl2]. apply IH. exact H.
Qed.
Lemma sum_loop_ok check f l : sum_loop check f l = if negb check && (existsb is_nan (map fst l) || existsb is_nan (map snd l)) then None else Some (qsum (map (fun p => f (fst p - snd p)%Qc) (pairs_of l))).
Proof.
  unfold sum_loop. destruct check; cbn [negb andb].
  - rewrite sum_loop_nan. f_equal. ring.
  - destruct (existsb is_nan (map fst l) || existsb is_nan (map snd l)) eqn:E; [apply sum_loop_all; auto|]. apply orb_false_iff in E. destruct E as [E1 E2].
    transitivity (fold_left (fun s p => match gap p with None => s | Some d => s +f Some (f d) end) l (Some 0%Qc)).
    + revert E1 E2. generalize (Some 0%Qc : option Qc). induction l as [|[[a|] [b|]] t IH]; intros s E1 E2; cbn [fold_left]; auto; discriminate.
    + rewrite sum_loop_nan. f_equal. ring.
Qed.
Lemma max_loop_some l : forall v, exists w, fold_left (fun m p => match gap p with None => m | Some d => match m with None => Some (qabs d) | Some v => if qltb v (qabs d) then Some (qabs d) else m end end) l (Some v) = Some w /\
  (w = v \/ exists p, In p (pairs_of l) /\ w = qabs (fst p - snd p)) /\ (v <= w)%Qc /\ forall p, In p (pairs_of l) -> (qabs (fst p - snd p) <= w)%Qc.
Proof.
  induction l as [|[[a|] [b|]] t IH]; intros v; cbn [fold_left pairs_of flat_map app]; try (apply IH).
  - exists v. repeat split; auto; try apply Qcle_refl. contradiction.
  - cbn [gap fst snd fsub fl2]. destruct (qltb_spec v (qabs (a - b))) as [L|L].
    + destruct (IH (qabs (a - b))) as (w & E & H1 & H2 & H3). exists w. split; [exact E|]. split; [right; destruct H1 as [-> |(p & Hp & ->)]; [exists (a, b); split; [left; auto|auto]|exists p; split; [right; auto|auto]]|].
      split; [qlra|]. intros p [<-|Hp]; [exact H2|apply H3; auto].
    + destruct (IH v) as (w & E & H1 & H2 & H3). exists w. split; [exact E|]. split; [destruct H1 as [-> |(p & Hp & ->)]; [auto|right; exists p; split; [right; auto|auto]]|].
      split; [auto|]. intros p [<-|Hp]; [cbn [fst snd]; apply Qcnot_lt_le in L; qlra|apply H3; auto].
Qed.
Lemma max_loop_ok l : (pairs_of l = [] -> max_loop l = None) /\ (pairs_of l <> [] -> exists v, max_loop l = Some v /\ largest (pairs_of l) v).
Proof.
  unfold max_loop. induction l as [|[[a|] [b|]] t IH]; cbn [fold_left pairs_of flat_map app]; try (exact IH).
  - split; auto. intros H. contradiction.
  - split; [discriminate|]. intros _. cbn [gap fst snd fsub fl2]. destruct (max_loop_some t (qabs (a - b))) as (w & E & H1 & H2 & H3). exists w. split; [exact E|]. split.
    + destruct H1 as [-> |(p & Hp & ->)]; [exists (a, b); split; [left; auto|auto]|exists p; split; [right; auto|auto]].
    + intros p [<-|Hp]; [exact H2|apply H3; auto].
Qed.

(** The writes of all pairs. *)
Lemma pair_loop_ok n c0 val (v : Z -> Z -> rval) st : 0 <= n <= Z.of_nat c0 -> dist_storage (Z.of_nat c0) <= Z.of_nat (length st) ->
  (forall i j, 0 <= i < n -> 0 <= j < n -> i < j -> val i j = Ok (v i j)) ->
  exists d, pair_loop n (Z.of_nat c0) val st = Ok d /\ length d = length st /\ forall i j, 0 <= i < n -> 0 <= j < n -> i < j -> sym_get0 false (Sym c0 d) i j = Ok (v i j) /\ sym_get0 false (Sym c0 d) j i = Ok (v i j).
Proof.
  intros Hn L HV. unfold pair_loop. set (W := flat_map _ _). edestruct (sym_writes (dg := false) st c0 (fun i j => if i <? j then v i j else v j i) W) as (d & E & LD & V).
  - exact L.
  - intros i j. destruct (Z.ltb_spec i j), (Z.ltb_spec j i); auto; try lia. assert (i = j) as -> by lia. auto.
  - intros p e H. apply in_flat_map in H. destruct H as (i & Hi & H). apply in_zrange in Hi. apply in_flat_map in H. destruct H as (j & Hj & H). apply in_zrange in Hj. destruct (Z.ltb_spec i j); [|destruct H].
    destruct H as [H|[]]. injection H as <- <-. exists i, j. split; [repeat split; try lia; right; lia|]. split; auto. destruct (Z.ltb_spec i j); [apply HV; lia|lia].
  - exists d. split; auto. split; auto. intros i j Hi Hj Hij.
    assert (IN : In (sym_index false (Z.of_nat c0) i j) (map fst W)).
    { apply in_map_iff. exists (sym_index false (Z.of_nat c0) i j, val i j). split; auto. apply in_flat_map. exists i. split; [apply in_zrange; lia|]. apply in_flat_map. exists j. split; [apply in_zrange; lia|]. destruct (Z.ltb_spec i j); [left; auto|lia]. }
    split.
    + destruct (V i j) as [V1 _]; [repeat split; try lia; right; lia|]. rewrite (V1 IN). destruct (Z.ltb_spec i j); [auto|lia].
    + destruct (V j i) as [V1 _]; [repeat split; try lia; right; lia|]. rewrite V1; [destruct (Z.ltb_spec j i); [lia|auto]|]. replace (sym_index false (Z.of_nat c0) j i) with (sym_index false (Z.of_nat c0) i j); auto. apply sym_index_comm.
Qed.
