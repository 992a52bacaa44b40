(** The item odometer, the combined generator and the search loop. *)
From Coq Require Import String.
From Verif Require Import Base SearchModel SearchSpec SearchProofs.
From Coq Require Import ZifyBool.
Local Open Scope nat_scope.

Fixpoint odo (ss is_ : list nat) : option (list nat) :=
  match is_, ss with
  | i :: is', s :: ss' =>
      if S i <? s then Some (S i :: is') else option_map (cons 0) (odo ss' is')
  | _, _ => None
  end.

Fixpoint prods (ss : list nat) : list (list nat) :=
  match ss with
  | [] => [[]]
  | s :: ss' => flat_map (fun tl => map (fun i => i :: tl) (seq 0 s)) (prods ss')
  end.

Lemma odo_block s ss tl : forall m j, j + S m = s ->
  Run (odo (s :: ss)) (j :: tl) (map (fun i => i :: tl) (seq j (S m)))
      (option_map (cons 0) (odo ss tl)).
Proof.
  induction m as [|m IH]; intros j Hj.
  - simpl. apply run_one'. simpl. destruct (Nat.ltb_spec (S j) s); [lia|auto].
  - change (map (fun i => i :: tl) (seq j (S (S m))))
      with ((j :: tl) :: map (fun i => i :: tl) (seq (S j) (S m))).
    eapply run_step; [|apply IH; lia].
    simpl. destruct (Nat.ltb_spec (S j) s); [auto|lia].
Qed.

Lemma prods_run ss : Forall (fun s => 0 < s) ss ->
  Run (odo ss) (repeat 0 (length ss)) (prods ss) None.
Proof.
  induction 1 as [|s ss Hs _ IH]; simpl.
  - apply run_one'; reflexivity.
  - apply run_flat with (f := odo ss) (P := fun _ => True) (e := cons 0)
       (blk := fun tl => map (fun i => i :: tl) (seq 0 s)); auto.
    + intros y z _ Hyz. destruct s as [|s]; [lia|].
      pose proof (odo_block (S s) ss y s 0 ltac:(lia)) as H. rewrite Hyz in H. exact H.
    + intros y _ Hy. destruct s as [|s]; [lia|].
      pose proof (odo_block (S s) ss y s 0 ltac:(lia)) as H. rewrite Hy in H. exact H.
Qed.

Lemma prods_spec ss : forall is_, In is_ (prods ss) <-> Forall2 (fun s i => i < s) ss is_.
Proof.
  induction ss as [|s ss IH]; intros is_; simpl.
  - split; [intros [<-|[]]; constructor|]. intros H; inversion H; auto.
  - rewrite in_flat_map. split.
    + intros (tl & Ht & H). apply in_map_iff in H. destruct H as (i & <- & Hi).
      apply in_seq in Hi. constructor; [lia|]. apply IH; auto.
    + intros H; inversion H as [|? i ? tl Hi Ht]; subst. exists tl. split; [apply IH; auto|].
      apply in_map_iff. exists i. split; auto. apply in_seq; lia.
Qed.

Lemma prods_nodup ss : NoDup (prods ss).
Proof.
  induction ss as [|s ss IH]; simpl; [repeat constructor; simpl; tauto|].
  apply NoDup_flat_map; auto.
  - intros x _. apply NoDup_map_inj; [intros; congruence|apply seq_NoDup].
  - intros x y z _ _ H1 H2. apply in_map_iff in H1, H2.
    destruct H1 as (i & <- & _), H2 as (j & H2 & _). congruence.
Qed.

Lemma prods_count ss : length (prods ss) = prodl ss.
Proof.
  induction ss as [|s ss IH]; simpl; auto. rewrite <- IH. clear IH.
  induction (prods ss) as [|a l IH]; simpl; [lia|].
  rewrite app_length, map_length, seq_length. lia.
Qed.

(** ** Effective sizes: with NumFixItems = m the first chosen partition offers only its items < m *)
Definition plen (P : list (list Z)) (p : nat) : nat := length (nth p P []).
Definition flen (P : list (list Z)) (fI : Z) (p : nat) : nat :=
  if (fI =? 0)%Z then plen P p else length (filter (fun v => (v <? fI)%Z) (nth p P [])).
Definition esz (P : list (list Z)) (fI : Z) (ps : list nat) : list nat :=
  match ps with [] => [] | p :: ps' => flen P fI p :: map (plen P) ps' end.

Definition below_closed (fI : Z) (l : list Z) : Prop :=
  forall i j, i < j < length l -> (nth j l 0 < fI)%Z -> (nth i l 0 < fI)%Z.

Lemma below_closed_iff fI l : below_closed fI l ->
  forall i, i < length l -> ((nth i l 0 < fI)%Z <-> i < length (filter (fun v => (v <? fI)%Z) l)).
Proof.
  induction l as [|a l IH]; intros H i Hi; [simpl in Hi; lia|].
  assert (Hl : below_closed fI l).
  { intros x y Hxy Hy. apply (H (S x) (S y)); simpl; auto; lia. }
  simpl. destruct (Z.ltb_spec a fI) as [Ha|Ha].
  - destruct i as [|i]; simpl; [lia|]. rewrite IH by (auto; simpl in Hi; lia). lia.
  - assert (E : filter (fun v => (v <? fI)%Z) l = []).
    { clear IH Hl Hi. destruct (filter (fun v => (v <? fI)%Z) l) as [|b fl] eqn:E; auto.
      assert (Hb : In b l /\ (b < fI)%Z).
      { rewrite <- Z.ltb_lt. rewrite <- filter_In with (f := fun v => (v <? fI)%Z). rewrite E; simpl; auto. }
      destruct Hb as [Hb1 Hb2]. apply In_nth with (d := 0%Z) in Hb1. destruct Hb1 as (j & Hj & <-).
      specialize (H 0 (S j) ltac:(simpl; lia) Hb2). simpl in H. lia. }
    rewrite E. simpl. destruct i as [|i]; [lia|].
    split; [|lia]. intros Hc. exfalso.
    assert (nth 0 (a :: l) 0 < fI)%Z by (apply (H 0 (S i)); simpl in *; auto; lia).
    simpl in *; lia.
Qed.

Lemma upd_middle {A} i (v x : A) l1 l2 : length l1 = i -> upd i v (l1 ++ x :: l2) = l1 ++ v :: l2.
Proof. intros <-. replace (length l1) with (length l1 + 0) by lia. rewrite upd_app_r. reflexivity. Qed.

Lemma nth_middle' {A} i (x d : A) l1 l2 : length l1 = i -> nth i (l1 ++ x :: l2) d = x.
Proof. intros <-. replace (length l1) with (length l1 + 0) by lia. rewrite app_nth2_plus. reflexivity. Qed.

Section Gen.
  Variable P : list (list Z).
  Variable fI : Z.
  Variable g : list Z.

  Lemma inner_tail ps1 : forall ps2 i rest,
    length ps1 = i -> 0 < i -> length rest = length ps2 ->
    (fI = 0%Z \/ (0 < length g /\ (nth 0 g 0 < fI)%Z)) ->
    Forall (fun p => p < length P) ps2 ->
    inner_loop P g fI (ps1 ++ ps2) (length ps2) i (repeat 0 i ++ rest)
    = match odo (map (plen P) ps2) rest with
      | Some r => IRet (repeat 0 i ++ r)
      | None => IFall (repeat 0 (i + length ps2))
      end.
  Proof.
    intros ps2. revert ps1. induction ps2 as [|p ps2 IH]; intros ps1 i rest Hi Hpos Hr Hg HF.
    - destruct rest; [|simpl in Hr; lia]. simpl. rewrite app_nil_r. do 2 f_equal; lia.
    - destruct rest as [|r rest]; [simpl in Hr; lia|].
      inversion HF as [|? ? Hp HF']; subst.
      cbn [inner_loop length map odo].
      rewrite nth_middle' by reflexivity.
      destruct (Nat.leb_spec (length P) p); [lia|].
      rewrite (nth_middle' _ r) by apply repeat_length.
      rewrite !(upd_middle _ _ r) by apply repeat_length.
      unfold plen at 1.
      replace (r + 1) with (S r) by lia.
      destruct (Nat.ltb_spec (S r) (length (nth p P []))) as [Hlt|Hge].
      + destruct (Z.eqb_spec fI 0) as [Hz|Hz]; [reflexivity|].
        destruct Hg as [Hg|[Hg1 Hg2]]; [lia|].
        assert (E0 : nth 0 (repeat 0 (length ps1) ++ S r :: rest) 0 = 0).
        { destruct (length ps1); [lia|]. reflexivity. }
        rewrite E0. destruct (Nat.ltb_spec 0 (length g)); [|lia].
        destruct (Z.ltb_spec (nth 0 g 0%Z) fI); [|lia]. reflexivity.
      + replace (ps1 ++ p :: ps2) with ((ps1 ++ [p]) ++ ps2) by (rewrite <- app_assoc; reflexivity).
        replace (repeat 0 (length ps1) ++ 0 :: rest) with (repeat 0 (S (length ps1)) ++ rest).
        2:{ replace (S (length ps1)) with (length ps1 + 1) by lia. rewrite repeat_app, <- app_assoc. reflexivity. }
        rewrite IH; [|rewrite app_length; simpl; lia|lia|simpl in Hr; lia|auto|auto].
        destruct (odo (map (plen P) ps2) rest) as [q|]; simpl.
        -- f_equal. change (0 :: repeat 0 (length ps1) ++ q) with (repeat 0 (S (length ps1)) ++ q).
           replace (S (length ps1)) with (length ps1 + 1) by lia. rewrite repeat_app, <- app_assoc. reflexivity.
        -- f_equal. rewrite <- plus_n_Sm. reflexivity.
  Qed.
End Gen.

Lemma inner_eq P fI p ps i is_ :
  Forall (fun q => q < length P) (p :: ps) -> length is_ = length ps ->
  (fI = 0%Z \/ (below_closed fI (nth p P []) /\ 0 < flen P fI p /\ i < flen P fI p)) ->
  inner_loop P (nth p P []) fI (p :: ps) (S (length ps)) 0 (i :: is_)
  = match odo (esz P fI (p :: ps)) (i :: is_) with
    | Some r => IRet r
    | None => IFall (repeat 0 (S (length ps)))
    end.
Proof.
  intros HF Hlen Hor. inversion HF as [|? ? Hp HF']; subst.
  cbn [inner_loop nth upd].
  destruct (Nat.leb_spec (length P) p); [lia|].
  replace (i + 1) with (S i) by lia.
  assert (Htail : (fI = 0%Z \/ 0 < length (nth p P []) /\ (nth 0 (nth p P []) 0 < fI)%Z) ->
     inner_loop P (nth p P []) fI (p :: ps) (length ps) 1 (0 :: is_)
     = match option_map (cons 0) (odo (map (plen P) ps) is_) with
       | Some r => IRet r | None => IFall (repeat 0 (S (length ps))) end).
  { intros Hg. pose proof (inner_tail P fI (nth p P []) [p] ps 1 is_ eq_refl ltac:(lia) Hlen Hg HF') as H1.
    simpl app in H1. simpl repeat in H1. rewrite H1.
    destruct (odo (map (plen P) ps) is_); reflexivity. }
  cbn [esz odo]. destruct Hor as [Hz|(Hbc & Hp0 & Hi)].
  - subst fI. unfold flen; simpl (0 =? 0)%Z. cbv iota. unfold plen at 1.
    destruct (Nat.ltb_spec (S i) (length (nth p P []))); [reflexivity|].
    apply Htail; auto.
  - pose proof (below_closed_iff _ _ Hbc) as Hiff.
    unfold flen in *. destruct (Z.eqb_spec fI 0) as [Hz|Hz].
    + subst fI. unfold plen at 1.
      destruct (Nat.ltb_spec (S i) (length (nth p P []))); [reflexivity|].
      apply Htail; auto.
    + set (l := nth p P []) in *. set (e := length (filter (fun v => (v <? fI)%Z) l)) in *.
      assert (He : e <= length l) by (unfold e; clear; induction l as [|a l IH]; simpl; auto; destruct (a <? fI)%Z; simpl; lia).
      assert (Hg0 : 0 < length l /\ (nth 0 l 0 < fI)%Z) by (split; [lia|apply Hiff; lia]).
      destruct (Nat.ltb_spec (S i) (length l)) as [H1|H1].
      * destruct (Nat.ltb_spec (S i) e) as [H2|H2].
        -- destruct (Z.ltb_spec (nth (S i) l 0%Z) fI) as [H3|H3]; [reflexivity|].
           apply Hiff in H2; lia.
        -- destruct (Z.ltb_spec (nth (S i) l 0%Z) fI) as [H3|H3].
           { apply Hiff in H3; lia. }
           apply Htail; auto.
      * destruct (Nat.ltb_spec (S i) e) as [H2|H2]; [lia|]. apply Htail; auto.
Qed.

(** ** The whole generator *)
Section Whole.
  Variable c : cfg.
  Let P := parts c.
  Let n := length P.
  Let k := kk c.
  Let fx := fixG c.
  Let fI := fixI c.

  Definition good (ps : list nat) : bool :=
    (fixI c =? 0)%Z || (nth 0 (nth (nth 0 ps 0%nat) (parts c) []) 0 <? fixI c)%Z.

  Definition nextg (ps : list nat) : option (list nat) :=
    match next ps (kk c) (length (parts c)) (fixG c) with
    | Some ps' => if good ps' then Some ps' else None
    | None => None
    end.

  Definition mstep (x : list nat * list nat) : option (list nat * list nat) :=
    match odo (esz (parts c) (fixI c) (fst x)) (snd x) with
    | Some is' => Some (fst x, is')
    | None => option_map (fun ps' => (ps', repeat 0 (kk c))) (nextg (fst x))
    end.

  (** Hypotheses of the restricted search: items of a partition sorted upwards by "is below m",
      partitions sorted by "first item is below m". Trivial when fixI = 0. *)
  Definition closed_cfg : Prop :=
    fixI c = 0%Z \/
    (Forall (below_closed (fixI c)) (parts c) /\
     (forall p q, p <= q < length (parts c) ->
        (nth 0 (nth q (parts c) []) 0 < fixI c)%Z -> (nth 0 (nth p (parts c) []) 0 < fixI c)%Z) /\
     (nth 0 (nth 0 (parts c) []) 0 < fixI c)%Z).

  Hypothesis Hne : Forall (fun l => l <> []) (parts c).
  Hypothesis Hk : 1 <= kk c <= length (parts c).
  Hypothesis Hfx : fixG c <= kk c.
  Hypothesis Hcl : closed_cfg.

  Definition goodps (ps : list nat) : Prop :=
    length ps = k /\ Forall (fun p => p < n) ps /\ good ps = true /\
    exists r, ps = seq 0 fx ++ r.

  Definition vs (x : list nat * list nat) : Prop :=
    goodps (fst x) /\ Forall2 (fun s i => i < s) (esz P fI (fst x)) (snd x).

  Lemma plen_pos p : p < n -> 0 < plen P p.
  Proof.
    intros H. unfold plen. rewrite Forall_forall in Hne.
    specialize (Hne (nth p P []) (nth_In _ _ H)). destruct (nth p P []); [congruence|simpl; lia].
  Qed.

  Lemma bc p : fI <> 0%Z -> p < n -> below_closed fI (nth p P []).
  Proof.
    intros Hf Hp. destruct Hcl as [E|(H & _)]; [unfold fI in Hf; lia|].
    rewrite Forall_forall in H. apply H, nth_In; exact Hp.
  Qed.

  Lemma flen_pos p ps : Forall (fun q => q < n) (p :: ps) -> good (p :: ps) = true -> 0 < flen P fI p.
  Proof.
    intros HF Hg. inversion HF as [|? ? Hp _]; subst. unfold flen. destruct (Z.eqb_spec fI 0) as [Hz|Hz].
    - apply plen_pos; auto.
    - unfold good in Hg. fold fI in Hg. apply orb_true_iff in Hg. destruct Hg as [Hg|Hg]; [lia|].
      simpl in Hg. apply (below_closed_iff _ _ (bc p Hz Hp)); [apply plen_pos; auto|].
      fold P in Hg. lia.
  Qed.

  Lemma esz_pos ps : goodps ps -> Forall (fun s => 0 < s) (esz P fI ps).
  Proof.
    intros (Hl & HF & Hg & _). destruct ps as [|p ps]; simpl; [constructor|].
    constructor; [eapply flen_pos; eauto|].
    rewrite Forall_map. inversion HF; subst. eapply Forall_impl; [|eassumption].
    intros a Ha; apply plen_pos; exact Ha.
  Qed.

  Lemma esz_length ps : length (esz P fI ps) = length ps.
  Proof. destruct ps; simpl; auto. rewrite map_length; auto. Qed.

  Lemma move_next_eq ps is_ : vs (ps, is_) ->
    move_next c ps is_ = match mstep (ps, is_) with Some (ps', is') => MTrue ps' is' | None => MFalse end.
  Proof.
    intros ((Hl & HF & Hg & Hr) & H2). simpl in *.
    unfold move_next, mstep. simpl fst; simpl snd.
    destruct ps as [|p ps]; [simpl in Hl; unfold k in Hl; lia|].
    assert (Hpn : p < n) by (inversion HF; auto).
    simpl nth. fold P. destruct (Nat.leb_spec (length P) p) as [H|H]; [unfold n in Hpn; lia|].
    inversion H2 as [|? i ? tl Hi Ht]; subst.
    assert (Hkk : kk c = S (length ps)) by (unfold k in Hl; simpl in Hl; lia).
    rewrite Hkk. fold fI.
    assert (Hlt : length tl = length ps).
    { apply Forall2_len in Ht. rewrite map_length in Ht. lia. }
    rewrite inner_eq; auto.
    2:{ destruct (Z.eq_dec fI 0) as [Hz|Hz]; auto. right. split; [apply bc; auto|].
        split; auto. eapply flen_pos; eauto. }
    destruct (odo (esz P fI (p :: ps)) (i :: tl)) as [r|]; [reflexivity|].
    replace (map (fun _ : nat => 0) (i :: tl)) with (repeat 0 (S (length ps))).
    2:{ rewrite <- Hlt. clear. change (0 :: repeat 0 (length tl) = 0 :: map (fun _ => 0) tl). f_equal.
        induction tl; simpl; auto. f_equal; auto. }
    unfold nextg. fold P. rewrite Hkk.
    destruct (next (p :: ps) (S (length ps)) (length P) (fixG c)) as [ps'|] eqn:En; [|reflexivity].
    unfold good. fold fI P. destruct (Z.eqb_spec fI 0) as [Hz|Hz]; [reflexivity|].
    cbn [orb]. 
    destruct (Nat.leb_spec (length P) (nth 0 ps' 0)) as [Hbad|Hok].
    { exfalso. destruct Hr as [r Hr].
      assert (El : length r = S (length ps) - fx).
      { apply (f_equal (@length nat)) in Hr. rewrite app_length, seq_length in Hr. simpl in Hr. lia. }
      assert (Hfk : fx <= S (length ps)) by (unfold fx; lia).
      rewrite Hr in En.
      replace (S (length ps)) with (length (seq 0 fx) + length r) in En by (rewrite seq_length; lia).
      replace (fixG c) with (length (seq 0 fx)) in En by (rewrite seq_length; reflexivity).
      rewrite next_succ in En.
      destruct (succ (length P) r) as [r'|] eqn:Es; [|discriminate]. simpl in En. injection En as <-.
      destruct fx as [|fx'].
      - simpl in Hbad.
        assert (Hb : forall l l', succ (length P) l = Some l' -> Forall (fun q => q < length P) l -> Forall (fun q => q < length P) l').
        { clear. induction l as [|a l IH]; intros l' H HF; simpl in H; [discriminate|].
          inversion HF; subst. destruct (succ (length P) l) as [l2|] eqn:E2.
          - injection H as <-. constructor; auto.
          - destruct (Nat.ltb_spec (a + 1 + length l) (length P)); [|discriminate].
            injection H as <-. apply Forall_forall. intros x Hx.
            change (S a :: seq (S (S a)) (length l)) with (seq (S a) (S (length l))) in Hx.
            apply in_seq in Hx. lia. }
        assert (Hr2 : Forall (fun q => q < length P) r') by (apply (Hb r r'); auto; simpl in Hr; rewrite <- Hr; exact HF).
        destruct r' as [|a r']; simpl in Hbad.
        + lia.
        + inversion Hr2; lia.
      - simpl in Hbad. lia. }
    assert (Hne0 : 0 < length (nth (nth 0 ps' 0) P [])) by (apply plen_pos; exact Hok).
    simpl repeat. simpl nth.
    destruct (Nat.leb_spec (length (nth (nth 0 ps' 0) P [])) 0); [lia|].
    destruct (nth 0 (nth (nth 0 ps' 0%nat) P []) 0 <? fI)%Z; reflexivity.
  Qed.

  Lemma succ_bound m l l' : succ m l = Some l' -> Forall (fun q => q < m) l -> Forall (fun q => q < m) l'.
  Proof.
    revert l'; induction l as [|a l IH]; intros l' H HF; simpl in H; [discriminate|].
    inversion HF; subst. destruct (succ m l) as [l2|] eqn:E2.
    - injection H as <-. constructor; auto.
    - destruct (Nat.ltb_spec (a + 1 + length l) m); [|discriminate].
      injection H as <-. apply Forall_forall. intros x Hx.
      change (S a :: seq (S (S a)) (length l)) with (seq (S a) (S (length l))) in Hx.
      apply in_seq in Hx. lia.
  Qed.

  Lemma next_form r : length r = k - fx ->
    next (seq 0 fx ++ r) (kk c) (length (parts c)) (fixG c) = option_map (app (seq 0 fx)) (succ n r).
  Proof.
    intros Hr. pose proof (next_succ (seq 0 fx) r n) as H. rewrite seq_length in H.
    replace (fx + length r) with (kk c) in H by (fold k; unfold fx, k in *; lia).
    exact H.
  Qed.

  Definition all_ps : list (list nat) := map (app (seq 0 fx)) (combs (n - fx) fx (k - fx)).

  Lemma seq_split_fx : seq 0 k = seq 0 fx ++ seq fx (k - fx).
  Proof. rewrite <- seq_app. f_equal. unfold k, fx; lia. Qed.

  Lemma next_run :
    Run (fun ps => next ps (kk c) (length (parts c)) (fixG c)) (seq 0 k) all_ps None.
  Proof.
    rewrite seq_split_fx. unfold all_ps. rewrite <- flat_map_single.
    apply run_flat with (f := succ n) (P := fun r => length r = k - fx)
       (e := app (seq 0 fx)) (blk := fun x => [seq 0 fx ++ x]).
    - intros y z Hy Hz. apply succ_length in Hz; congruence.
    - intros y z Hy Hz. apply run_one'. rewrite next_form, Hz by auto. reflexivity.
    - intros y Hy Hz. apply run_one'. rewrite next_form, Hz by auto. reflexivity.
    - apply seq_length.
    - assert (En : fx + (n - fx) = n) by (unfold n, fx, P; lia).
      pose proof (combs_run (n - fx) fx (k - fx) ltac:(unfold n, k, fx, P; lia)) as H.
      rewrite En in H. exact H.
  Qed.

  Lemma good_first : good (seq 0 k) = true.
  Proof.
    unfold good. destruct Hcl as [E|(_ & _ & E)].
    - rewrite E; reflexivity.
    - replace (nth 0 (seq 0 k) 0) with 0.
      + apply orb_true_iff; right. lia.
      + unfold k. destruct (kk c); reflexivity.
  Qed.

  Definition pform (ps : list nat) : Prop :=
    exists r, ps = seq 0 fx ++ r /\ length r = k - fx /\ Forall (fun p => p < n) r.

  Lemma pform_step ps ps' :
    pform ps -> next ps (kk c) (length (parts c)) (fixG c) = Some ps' -> pform ps'.
  Proof.
    intros (r & -> & Hl & HF) H. rewrite next_form in H by auto.
    destruct (succ n r) as [r'|] eqn:E; [|discriminate]. injection H as <-.
    exists r'. split; auto. split; [apply succ_length in E; congruence|]. eapply succ_bound; eauto.
  Qed.

  Lemma succ_hd m l l' : succ m l = Some l' -> nth 0 l 0 <= nth 0 l' 0.
  Proof.
    destruct l as [|a l]; simpl; [discriminate|]. destruct (succ m l).
    - intros H; injection H as <-; simpl; lia.
    - destruct (Nat.ltb_spec (a + 1 + length l) m); [|discriminate].
      intros H1; injection H1 as <-; simpl; lia.
  Qed.

  Lemma good_back ps ps' :
    pform ps -> next ps (kk c) (length (parts c)) (fixG c) = Some ps' -> good ps' = true -> good ps = true.
  Proof.
    intros Hp Hn Hg. pose proof (pform_step _ _ Hp Hn) as Hp'.
    destruct Hp as (r & -> & Hl & HF). rewrite next_form in Hn by auto.
    destruct (succ n r) as [r'|] eqn:E; [|discriminate]. injection Hn as <-.
    destruct Hcl as [Ez|(_ & Hc & _)]; [unfold good; rewrite Ez; reflexivity|].
    unfold good in *. apply orb_true_iff in Hg. apply orb_true_iff.
    destruct Hg as [Hg|Hg]; [auto|right].
    destruct fx as [|fx'] eqn:Efx; [|exact Hg].
    simpl in *. pose proof (succ_hd _ _ _ E) as Hh.
    assert (Hb : nth 0 r' 0 < length (parts c)).
    { destruct Hp' as (r2 & E2 & Hl2 & HF2). rewrite Efx in E2; simpl in E2; subst r2.
      destruct r' as [|a r']; simpl; [simpl in Hl2; unfold k in *; lia|]. inversion HF2; subst. assumption. }
    rewrite Z.ltb_lt in *. eapply Hc; [|exact Hg]. lia.
  Qed.

  Lemma pform_first : pform (seq 0 k).
  Proof.
    rewrite seq_split_fx. exists (seq fx (k - fx)). split; auto. split; [apply seq_length|].
    apply Forall_forall. intros x Hx. apply in_seq in Hx. unfold n, k, P, fx in *. lia.
  Qed.

  Lemma nextg_run : Run nextg (seq 0 k) (filter good all_ps) None.
  Proof.
    unfold nextg.
    apply run_filter with (P := pform) (f := fun ps => next ps (kk c) (length (parts c)) (fixG c)).
    - apply pform_step.
    - apply good_back.
    - apply pform_first.
    - apply good_first.
    - apply next_run.
  Qed.

  Lemma pform_goodps ps : pform ps -> good ps = true -> goodps ps.
  Proof.
    intros (r & -> & Hl & HF) Hg. split; [|split; [|split]]; auto.
    - rewrite app_length, seq_length. unfold fx, k in *; lia.
    - apply Forall_app. split; auto. apply Forall_forall. intros x Hx; apply in_seq in Hx.
      unfold n, P, fx in *; lia.
    - exists r; reflexivity.
  Qed.

  Definition all_pos : list (list nat * list nat) :=
    flat_map (fun ps => map (pair ps) (prods (esz P fI ps))) (filter good all_ps).

  Lemma map_run {A B} (f : A -> option A) (F : B -> option B) (h : A -> B) (o' : option B) x l :
    (forall y z, f y = Some z -> F (h y) = Some (h z)) ->
    (forall y, f y = None -> F (h y) = o') ->
    Run f x l None -> Run F (h x) (map h l) o'.
  Proof.
    intros H1 H2 H. rewrite <- flat_map_single.
    apply run_flat with (f := f) (P := fun _ => True) (blk := fun x => [h x]); auto;
      intros; apply run_one'; auto.
  Qed.

  Lemma mstep_run : Run mstep (seq 0 k, repeat 0 k) all_pos None.
  Proof.
    unfold all_pos.
    apply run_flat with (f := nextg) (P := fun ps => pform ps /\ good ps = true)
       (e := fun ps => (ps, repeat 0 k))
       (blk := fun ps => map (pair ps) (prods (esz P fI ps))).
    - intros y z [Hy1 Hy2] Hz. unfold nextg in Hz.
      destruct (next y (kk c) (length (parts c)) (fixG c)) as [y'|] eqn:E; [|discriminate].
      destruct (good y') eqn:Eg; [|discriminate]. injection Hz as <-. split; auto.
      eapply pform_step; eauto.
    - intros y z [Hy1 Hy2] Hz. pose proof (pform_goodps _ Hy1 Hy2) as Hg.
      apply map_run with (f := odo (esz P fI y)).
      + intros a b Hab. unfold mstep; simpl. fold P fI. rewrite Hab. reflexivity.
      + intros a Ha. unfold mstep; simpl. fold P fI. rewrite Ha, Hz. reflexivity.
      + replace k with (length (esz P fI y)).
        * apply prods_run. apply esz_pos; auto.
        * rewrite esz_length. apply Hg.
    - intros y [Hy1 Hy2] Hz. pose proof (pform_goodps _ Hy1 Hy2) as Hg.
      apply map_run with (f := odo (esz P fI y)).
      + intros a b Hab. unfold mstep; simpl. fold P fI. rewrite Hab. reflexivity.
      + intros a Ha. unfold mstep; simpl. fold P fI. rewrite Ha, Hz. reflexivity.
      + replace k with (length (esz P fI y)).
        * apply prods_run. apply esz_pos; auto.
        * rewrite esz_length. apply Hg.
    - split; [apply pform_first|apply good_first].
    - apply nextg_run.
  Qed.

  Lemma ss_seq_app m : forall a r, StronglySorted lt r -> Forall (fun x => a + m <= x) r ->
    StronglySorted lt (seq a m ++ r).
  Proof.
    induction m as [|m IH]; intros a r Hs HF; simpl; auto.
    constructor.
    - apply IH; auto. eapply Forall_impl; [|exact HF]; simpl; intros; lia.
    - apply Forall_app. split.
      + apply Forall_forall. intros x Hx; apply in_seq in Hx; lia.
      + eapply Forall_impl; [|exact HF]; simpl; intros; lia.
  Qed.

  Lemma ss_prefix m : forall a l, StronglySorted lt l ->
    (forall j, j < m -> nth_error l j = Some (a + j)) -> Forall (fun x => a <= x) l ->
    exists r, l = seq a m ++ r /\ StronglySorted lt r /\ Forall (fun x => a + m <= x) r.
  Proof.
    induction m as [|m IH]; intros a l Hs Hn HF.
    - exists l. simpl. split; auto. split; auto. eapply Forall_impl; [|exact HF]; simpl; intros; lia.
    - destruct l as [|x l]; [specialize (Hn 0 ltac:(lia)); discriminate|].
      pose proof (Hn 0 ltac:(lia)) as H0. simpl in H0. injection H0 as ->. rewrite Nat.add_0_r in *.
      inversion Hs as [|? ? Hs' HF']; subst.
      destruct (IH (S a) l) as (r & -> & Hr1 & Hr2); auto.
      + intros j Hj. specialize (Hn (S j) ltac:(lia)). simpl in Hn. rewrite Hn. f_equal; lia.
      + exists r. split; auto. split; auto. eapply Forall_impl; [|exact Hr2]; simpl; intros; lia.
  Qed.

  Lemma all_ps_in ps : In ps all_ps <->
    length ps = k /\ StronglySorted lt ps /\ Forall (fun p => p < n) ps /\
    (forall j, j < fx -> nth_error ps j = Some j).
  Proof.
    unfold all_ps. rewrite in_map_iff. split.
    - intros (r & <- & Hr). apply combs_spec in Hr. destruct Hr as (Hl & Hs & HF).
      assert (Hb : Forall (fun x => fx <= x < n) r).
      { eapply Forall_impl; [|exact HF]. simpl; intros. unfold n, P, fx in *; lia. }
      split; [rewrite app_length, seq_length; unfold fx, k in *; lia|]. split.
      + apply ss_seq_app; auto. eapply Forall_impl; [|exact Hb]; simpl; intros; lia.
      + split.
        * apply Forall_app. split; [|eapply Forall_impl; [|exact Hb]; simpl; intros; lia].
          apply Forall_forall. intros x Hx; apply in_seq in Hx. unfold n, P, fx in *; lia.
        * intros j Hj. rewrite nth_error_app1 by (rewrite seq_length; auto).
          rewrite nth_error_nth' with (d := 0) by (rewrite seq_length; auto).
          rewrite seq_nth by auto. reflexivity.
    - intros (Hl & Hs & HF & Hn).
      destruct (ss_prefix fx 0 ps Hs Hn) as (r & -> & Hr1 & Hr2).
      { apply Forall_forall; intros; lia. }
      exists r. split; auto. apply combs_spec. split; [|split]; auto.
      + rewrite app_length, seq_length in Hl. lia.
      + rewrite Forall_app in HF. destruct HF as [_ HF]. rewrite Forall_forall in *.
        intros x Hx. specialize (HF x Hx). specialize (Hr2 x Hx). unfold n, P, fx in *; lia.
  Qed.

  Lemma all_pos_nodup : NoDup all_pos.
  Proof.
    unfold all_pos. apply NoDup_flat_map.
    - apply NoDup_filter. unfold all_ps. apply NoDup_map_inj; [|apply combs_nodup].
      intros x y _ _ H. apply app_inv_head in H; auto.
    - intros x _. apply NoDup_map_inj; [intros; congruence|apply prods_nodup].
    - intros x y z _ _ H1 H2. apply in_map_iff in H1, H2.
      destruct H1 as (a & <- & _), H2 as (b & H2 & _). congruence.
  Qed.

  Lemma all_pos_in ps is_ : In (ps, is_) all_pos <->
    In ps all_ps /\ good ps = true /\ Forall2 (fun s i => i < s) (esz P fI ps) is_.
  Proof.
    unfold all_pos. rewrite in_flat_map. split.
    - intros (q & Hq & H). apply filter_In in Hq. apply in_map_iff in H.
      destruct H as (r & E & Hr). injection E as -> ->. apply prods_spec in Hr. tauto.
    - intros (H1 & H2 & H3). exists ps. split; [apply filter_In; auto|].
      apply in_map_iff. exists is_. split; auto. apply prods_spec; auto.
  Qed.

  Lemma all_pos_vs x : In x all_pos -> vs x.
  Proof.
    destruct x as [ps is_]. intros H. apply all_pos_in in H. destruct H as (H1 & H2 & H3).
    split; auto. simpl. apply pform_goodps; auto.
    apply in_map_iff in H1. destruct H1 as (r & <- & Hr).
    apply combs_spec in Hr. destruct Hr as (Hl & _ & HF). exists r. split; auto. split; auto.
    eapply Forall_impl; [|exact HF]. simpl; intros. unfold n, P, fx in *; lia.
  Qed.

  (** The positions are exactly the choices whose first item is below m (if m <> 0). *)
  Lemma esz_choice ps is_ : In ps all_ps ->
    (good ps = true /\ Forall2 (fun s i => i < s) (esz P fI ps) is_) <->
    (Forall2 (fun p i => i < length (nth p P [])) ps is_ /\
     (fI = 0%Z \/ (nth 0 (model_at P ps is_) 0 < fI)%Z)).
  Proof.
    intros Hin. apply all_ps_in in Hin. destruct Hin as (Hl & _ & HF & _).
    destruct ps as [|p ps]; [simpl in Hl; unfold k in Hl; lia|].
    inversion HF as [|? ? Hp HF']; subst. cbn [esz].
    assert (Hmap : forall l js, Forall2 (fun s i => i < s) (map (plen P) l) js <->
              Forall2 (fun p i => i < length (nth p P [])) l js).
    { clear. induction l as [|a l IH]; intros js; simpl; split; intros H; inversion H; subst; constructor; auto;
        apply IH; auto. }
    unfold flen. destruct (Z.eqb_spec fI 0) as [Hz|Hz].
    - split.
      + intros [_ H]. inversion H; subst. split; auto. constructor; auto. apply Hmap; auto.
      + intros [H _]. inversion H; subst. split; [unfold good; fold fI; rewrite Hz; auto|].
        constructor; auto. apply Hmap; auto.
    - pose proof (below_closed_iff _ _ (bc p Hz Hp)) as Hiff.
      assert (Hfl : length (filter (fun v => (v <? fI)%Z) (nth p P [])) <= length (nth p P [])).
      { clear. induction (nth p P []) as [|a l IH]; simpl; auto. destruct (a <? fI)%Z; simpl; lia. }
      split.
      + intros [Hg H]. inversion H as [|? i ? tl Hi Ht]; subst. split.
        * constructor; [lia|]. apply Hmap; auto.
        * right. simpl. apply Hiff; lia.
      + intros [H [H0|H0]]; [lia|]. inversion H as [|? i ? tl Hi Ht]; subst. simpl in H0.
        apply Hiff in H0; auto. split.
        * unfold good. fold fI P. apply orb_true_iff; right. simpl.
          apply Z.ltb_lt. apply Hiff; lia.
        * constructor; auto. apply Hmap; auto.
  Qed.

  Theorem all_pos_choice ps is_ : In (ps, is_) all_pos <->
    choice P k fx ps is_ /\ (fI = 0%Z \/ (nth 0 (model_at P ps is_) 0 < fI)%Z).
  Proof.
    rewrite all_pos_in. unfold choice. split.
    - intros (H1 & H2). pose proof H1 as H1'. apply all_ps_in in H1'.
      apply esz_choice in H2; auto. tauto.
    - intros ((H1 & H2 & H3 & H4 & H5) & H6).
      assert (Hin : In ps all_ps) by (apply all_ps_in; auto).
      split; auto. apply esz_choice; auto.
  Qed.
End Whole.
