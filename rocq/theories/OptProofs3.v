(** Nelder-Mead. *)
From Verif Require Import OptModel OptSpec MatProofs OptProofs.
From Coq Require Import Lia ZifyBool.
Local Open Scope Z_scope.

Local Notation isnum := is_number.
Lemma vle_refl v : v <> Nan -> vle v v.
Proof. destruct v; cbn; auto; intros; try congruence. apply Qcle_refl. Qed.
Lemma vle_trans a b c : vle a b -> vle b c -> vle a c.
Proof. destruct a, b, c; cbn; try tauto. intros; qlra. Qed.
Lemma vltb_vle a b : vltb a b = true -> vle a b.
Proof. destruct a, b; cbn; try discriminate; auto. destruct (qltb_spec q q0); [intros; qlra|discriminate]. Qed.
Lemma not_vltb a b : vltb a b = false -> a <> Nan -> b <> Nan -> vle b a.
Proof. destruct a, b; cbn; try congruence; auto. destruct (qltb_spec q q0); [discriminate|intros; qlra]. Qed.

(** The least value: index in the range, or -1 if there is no number. *)
Lemma min_index_gen : forall l i m index, 0 <= i -> (-1 <= index < i) -> m <> Nan -> let r := min_index l i m index in
  (r = index /\ forall v, In v l -> v <> Nan -> vle m v) \/
  (exists k v, (k < length l)%nat /\ r = i + Z.of_nat k /\ nth_error l k = Some v /\ isnum v /\ vle v m /\ forall w, In w l -> w <> Nan -> vle v w).
Proof.
  induction l as [|d t IH]; intros i m index Hi Hx Hm; cbn [min_index]; [left; split; auto; intros v []|].
  destruct (vltb d m) eqn:E.
  - assert (Nd : isnum d) by (destruct d; try discriminate; eexists; eauto). assert (Nd' : d <> Nan) by (destruct Nd; congruence).
    right. destruct (IH (i + 1) d i ltac:(lia) ltac:(lia) Nd') as [(R & L)|(k & v & Hk & R & E1 & N1 & L1 & L2)].
    + exists 0%nat, d. cbn [length nth_error]. rewrite R. split; [lia|]. split; [lia|]. split; auto. split; auto. split; [apply vltb_vle; auto|].
      intros w [<-|Hw] Nw; [apply vle_refl; auto|auto].
    + exists (S k), v. cbn [length nth_error]. rewrite R. split; [lia|]. split; [lia|]. split; auto. split; auto. split; [eapply vle_trans; [apply L1|apply vltb_vle; auto]|].
      intros w [<-|Hw] Nw; auto.
  - destruct (IH (i + 1) m index ltac:(lia) ltac:(lia) Hm) as [(R & L)|(k & v & Hk & R & E1 & N1 & L1 & L2)].
    + left. split; auto. intros v [<-|Hv] Nv; auto. apply not_vltb; auto.
    + right. exists (S k), v. cbn [length nth_error]. split; [lia|]. split; [lia|]. split; auto. split; auto. split; auto.
      intros w [<-|Hw] Nw; auto. eapply vle_trans; [apply L1|]. apply not_vltb; auto.
Qed.
Lemma min_index_ok l : (exists v, In v l /\ isnum v) -> exists k v, min_index l 0 Inf (-1) = Z.of_nat k /\ nth_error l k = Some v /\ isnum v /\ forall w, In w l -> w <> Nan -> vle v w.
Proof.
  intros (v & Hv & q & ->). destruct (min_index_gen l 0 Inf (-1) ltac:(lia) ltac:(lia) ltac:(discriminate)) as [(R & L)|(k & w & Hk & R & E & N & _ & L)].
  - specialize (L _ Hv ltac:(discriminate)). contradiction.
  - exists k, w. split; [lia|]. auto.
Qed.
Lemma min_index_none l : (forall v, In v l -> ~ isnum v) -> min_index l 0 Inf (-1) = -1.
Proof.
  intros H. destruct (min_index_gen l 0 Inf (-1) ltac:(lia) ltac:(lia) ltac:(discriminate)) as [(R & L)|(k & w & Hk & R & E & N & _ & L)]; auto.
  exfalso. apply (H w); auto. eapply nth_error_In; eauto.
Qed.
Lemma max_index_gen : forall l i m index, 0 <= i -> (-1 <= index < i) -> m <> Some Nan -> let r := max_index l i m index in
  (r = index /\ forall v, In v l -> v <> Nan -> exists m', m = Some m' /\ vle v m') \/
  (exists k v, (k < length l)%nat /\ r = i + Z.of_nat k /\ nth_error l k = Some v /\ v <> Nan /\ (forall m', m = Some m' -> vle m' v) /\ forall w, In w l -> w <> Nan -> vle w v).
Proof.
  induction l as [|d t IH]; intros i m index Hi Hx Hm; cbn [max_index]; [left; split; auto; intros v []|].
  destruct (above m d) eqn:E.
  - assert (Nd : d <> Nan) by (destruct d, m; discriminate). assert (Md : forall m', m = Some m' -> vle m' d) by (intros m' ->; cbn in E; destruct d; try discriminate; apply vltb_vle; auto).
    right. destruct (IH (i + 1) (Some d) i ltac:(lia) ltac:(lia) ltac:(congruence)) as [(R & L)|(k & v & Hk & R & E1 & N1 & L1 & L2)].
    + exists 0%nat, d. cbn [length nth_error]. rewrite R. split; [lia|]. split; [lia|]. split; auto. split; auto. split; auto.
      intros w [<-|Hw] Nw; [apply vle_refl; auto|]. destruct (L w Hw Nw) as (m' & [= <-] & K). auto.
    + exists (S k), v. cbn [length nth_error]. rewrite R. split; [lia|]. split; [lia|]. split; auto. split; auto. split; [intros m' Em; eapply vle_trans; [apply Md; eauto|apply L1; auto]|].
      intros w [<-|Hw] Nw; auto.
  - assert (Md : d <> Nan -> exists m', m = Some m' /\ vle d m').
    { intros Nd. destruct m as [m'|]; [|destruct d; try discriminate; congruence]. exists m'. split; auto. apply not_vltb; auto; [|congruence]. cbn in E. destruct d; auto. congruence. }
    destruct (IH (i + 1) m index ltac:(lia) ltac:(lia) Hm) as [(R & L)|(k & v & Hk & R & E1 & N1 & L1 & L2)].
    + left. split; auto. intros v [<-|Hv] Nv; auto.
    + right. exists (S k), v. cbn [length nth_error]. split; [lia|]. split; [lia|]. split; auto. split; auto. split; auto.
      intros w [<-|Hw] Nw; auto. destruct (Md Nw) as (m' & Em & K). eapply vle_trans; [apply K|apply L1; auto].
Qed.
Lemma max_index_ok l : (exists v, In v l /\ v <> Nan) -> exists k v, max_index l 0 None (-1) = Z.of_nat k /\ nth_error l k = Some v /\ v <> Nan /\ forall w, In w l -> w <> Nan -> vle w v.
Proof.
  intros (v & Hv & Nv). destruct (max_index_gen l 0 None (-1) ltac:(lia) ltac:(lia) ltac:(discriminate)) as [(R & L)|(k & w & Hk & R & E & N & _ & L)].
  - destruct (L _ Hv Nv) as (m' & [=] & _).
  - exists k, w. split; [lia|]. auto.
Qed.
Lemma max_index_none l : (forall v, In v l -> v = Nan) -> max_index l 0 None (-1) = -1.
Proof.
  intros H. destruct (max_index_gen l 0 None (-1) ltac:(lia) ltac:(lia) ltac:(discriminate)) as [(R & L)|(k & w & Hk & R & E & N & _ & L)]; auto.
  exfalso. apply N, H. eapply nth_error_In; eauto.
Qed.
Lemma map_upd {A B} (f : A -> B) k v l : map f (upd k v l) = upd k (f v) (map f l).
Proof. revert k. induction l as [|a l IH]; intros [|k]; cbn; auto. f_equal. apply IH. Qed.
Lemma shrink_ok f a best b : forall Sx i, shrink_values f best i (shrink_points a best b i Sx) (map f Sx) = map f (shrink_points a best b i Sx).
Proof. induction Sx as [|p t IH]; intros i; cbn; auto. f_equal; [destruct (i =? best); auto|apply IH]. Qed.
Lemma shrink_length a best b : forall Sx i, length (shrink_points a best b i Sx) = length Sx.
Proof. induction Sx as [|p t IH]; intros i; cbn; auto. Qed.
Lemma shrink_best a best b : forall Sx i p k, nth_error Sx k = Some p -> best = i + Z.of_nat k -> In p (shrink_points a best b i Sx).
Proof.
  induction Sx as [|q t IH]; intros i p [|k] E Hb; cbn in E; try discriminate; cbn [shrink_points].
  - injection E as <-. left. destruct (Z.eqb_spec i best); auto. lia.
  - right. apply (IH (i + 1) p k); auto. lia.
Qed.
Lemma in_without {A} i (l : list A) x : In x (without i l) -> In x l.
Proof.
  unfold without. intros H. apply in_app_or in H. destruct H as [H|H].
  - rewrite <- (firstn_skipn (Z.to_nat i) l). apply in_or_app. auto.
  - rewrite <- (firstn_skipn (S (Z.to_nat i)) l). apply in_or_app. auto.
Qed.
Lemma rd_at {A} (l : list A) k v : nth_error l k = Some v -> rd l (Z.of_nat k) = Ok v.
Proof. intros E. unfold rd. destruct (Z.ltb_spec (Z.of_nat k) 0); [lia|]. rewrite Nat2Z.id, E. auto. Qed.
Section Loop.
Context (f : list Qc -> val) (o : nm_opt) (n : nat).
Definition good (v0 : val) (V : list val) : Prop := exists v, In v V /\ isnum v /\ vle v v0.
Lemma good_upd v0 V k v : (k < length V)%nat -> isnum v -> vle v v0 -> good v0 (upd k v V).
Proof using Type. intros Hk Nv L. exists v. split; auto. apply (nth_error_In _ k). apply nth_error_upd_same. auto. Qed.
Lemma vltb_num a b : vltb a b = true -> isnum a.
Proof using Type. destruct a; try discriminate. intros _. eexists; eauto. Qed.
Lemma nm_loop_ok v0 : forall fuel Sx V it, V = map f Sx -> good v0 V ->
  exists Sx' it', nm_loop f o n fuel Sx V it = Ok (Sx', map f Sx', it') /\ good v0 (map f Sx') /\ it <= it' <= it + Z.of_nat fuel.
Proof using Type.
  induction fuel as [|m IH]; intros Sx V it EV G; cbn [nm_loop]; [exists Sx, it; subst; split; [auto|split; [auto|lia]]|].
  pose proof G as (v & Hv & Nv & Lv).
  destruct (min_index_ok V) as (kb & vb & Eb & Nb & Numb & Lb); [exists v; auto|]. destruct (max_index_ok V) as (kw & vw & Ew & Nw & Nanw & Lw); [exists v; split; auto; destruct Nv; congruence|].
  rewrite Eb, Ew, (rd_at V kw vw Nw), (rd_at V kb vb Nb). cbn [bind].
  match goal with |- context[if ?b then Ok _ else _] => destruct b end; [exists Sx, it; subst; split; [auto|split; [auto|lia]]|].
  assert (LV : length V = length Sx) by (subst; apply map_length).
  assert (Hkw : (kw < length V)%nat) by (apply nth_error_Some; congruence). assert (Hkb : (kb < length V)%nat) by (apply nth_error_Some; congruence).
  assert (Pw : exists pw, nth_error Sx kw = Some pw). { destruct (nth_error Sx kw) eqn:K; eauto. apply nth_error_None in K. lia. } destruct Pw as (pw & Epw).
  assert (Pb : exists pb, nth_error Sx kb = Some pb). { destruct (nth_error Sx kb) eqn:K; eauto. apply nth_error_None in K. lia. } destruct Pb as (pb & Epb).
  rewrite (rd_at Sx kw pw Epw), (rd_at Sx kb pb Epb). cbn [bind].
  assert (Vb : vle vb v0). { eapply vle_trans; [|apply Lv]. apply Lb; auto. destruct Nv; congruence. }
  set (c := centroid n (without (Z.of_nat kw) Sx)). set (r := map2 (fun ci xi => (ci + p_reflection o * (ci - xi))%Qc) c pw).
  assert (Rep : forall p, (isnum (f p) /\ (vle (f p) vb \/ kw <> kb)) -> replace (Z.of_nat kw) (f p) V = map f (replace (Z.of_nat kw) p Sx) /\ good v0 (replace (Z.of_nat kw) (f p) V)).
  { intros p (Np & H). unfold replace. rewrite Nat2Z.id. split; [subst; symmetry; apply map_upd|]. destruct H as [H|H].
    - apply good_upd; auto. eapply vle_trans; eauto.
    - exists vb. split; [|auto]. apply (nth_error_In _ kb). rewrite nth_error_upd_other by auto. auto. }
  assert (Same : kw = kb -> forall w, In w V -> w <> Nan -> vle w vb). { intros -> w Hw Nw'. replace vb with vw by congruence. auto. }
  assert (Fin : forall Sx2 V2, V2 = map f Sx2 /\ good v0 V2 -> exists Sx' it', nm_loop f o n m Sx2 V2 (it + 1) = Ok (Sx', map f Sx', it') /\ good v0 (map f Sx') /\ it <= it' <= it + Z.of_nat (S m)).
  { intros Sx2 V2 (E2 & G2). destruct (IH Sx2 V2 (it + 1) E2 G2) as (S3 & i3 & E3 & G3 & B3). exists S3, i3. split; auto. split; auto. lia. }
  destruct (vltb (f r) vb) eqn:E1.
  { destruct (vltb (f (toward c (p_expansion o) r)) (f r)) eqn:E2; apply Fin; apply Rep.
    - split; [eapply vltb_num; eauto|]. left. eapply vle_trans; apply vltb_vle; eauto.
    - split; [eapply vltb_num; eauto|]. left. apply vltb_vle; auto. }
  destruct (existsb (vltb (f r)) (without (Z.of_nat kw) V)) eqn:E2.
  { apply existsb_exists in E2. destruct E2 as (w & Hw & Lw2). apply in_without in Hw. apply Fin. apply Rep. split; [eapply vltb_num; eauto|].
    destruct (Nat.eq_dec kw kb) as [Eq|]; auto. left. eapply vle_trans; [apply vltb_vle; eauto|]. apply Same; auto. intros ->. destruct (f r); discriminate. }
  destruct (vltb (f (toward c (p_contraction o) pw)) vw) eqn:E3.
  { apply Fin. apply Rep. split; [eapply vltb_num; eauto|]. destruct (Nat.eq_dec kw kb) as [Eq|]; auto. left. replace vb with vw by congruence. apply vltb_vle; auto. }
  unfold shrink. apply Fin. subst V. rewrite shrink_ok. split; auto.
  exists vb. split; [|auto]. rewrite nth_error_map, Epb in Nb. injection Nb as <-. apply in_map. eapply shrink_best; [apply Epb|lia].
Qed.
End Loop.
Lemma nm_none f o n fuel Sx V it : (forall v, In v V -> ~ isnum v) -> (do r <- nm_loop f o n fuel Sx V it; let '(Sx, V, iter) := r in do p <- rd Sx (min_index V 0 Inf (-1)); Ok (p, f p, iter)) = UB.
Proof.
  intros H. destruct fuel; cbn [nm_loop bind].
  - rewrite min_index_none by auto. reflexivity.
  - rewrite (min_index_none V H). destruct (max_index_gen V 0 None (-1) ltac:(lia) ltac:(lia) ltac:(discriminate)) as [(R & _)|(k & w & Hk & R & E & _)]; rewrite R.
    + reflexivity.
    + rewrite Z.add_0_l, (rd_at V k w E). reflexivity.
Qed.
