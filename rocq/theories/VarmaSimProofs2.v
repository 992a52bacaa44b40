(** The loop of the simulation of VARMA models. *)
From Verif Require Import VarmaSimSpec SurSimProofs VarmaSimProofs.
From Coq Require Import Lia ZifyBool.
Local Open Scope Z_scope.

Fixpoint down (n : nat) : list Z := match n with O => [] | S k => Z.of_nat n :: down k end.
Lemma origins_down n : origins (Z.of_nat n) = down n.
Proof.
  unfold origins. rewrite Nat2Z.id. induction n as [|n IH]; [reflexivity|]. cbn [seq map down]. f_equal. rewrite <- seq_shift, map_map, <- IH. apply map_ext. intros a. lia.
Qed.
Lemma in_down n x : In x (down n) <-> 1 <= x <= Z.of_nat n.
Proof. induction n as [|n IH]; cbn [down In]; [lia|]. rewrite IH. lia. Qed.
Lemma tried_mono hs a b : a <= b -> tried hs a = true -> tried hs b = true.
Proof. unfold tried. rewrite !existsb_exists. intros L (h & Hh & K). exists h. split; auto. lia. Qed.
Lemma not_tried hs n : tried hs (Z.of_nat n) = false -> filter (tried hs) (down n) = [].
Proof.
  intros K. destruct (filter (tried hs) (down n)) as [|x l] eqn:E; [reflexivity|]. exfalso. assert (Hx : In x (filter (tried hs) (down n))) by (rewrite E; left; auto).
  apply filter_In in Hx. destruct Hx as (Hx & Tx). apply in_down in Hx. rewrite (tried_mono hs x (Z.of_nat n)) in K by (auto; lia). discriminate.
Qed.
(** 1 if the loop ends before the last observation. *)
Definition broken (c : vset) (n : nat) : Z := if (1 <=? Z.of_nat n) && negb (tried (vs_horizons c) 1) then 1 else 0.
Definition any_ok (rs : list (Z * vfit)) : bool := existsb (fun r => vfit_ok (snd r)) rs.

Section P.
Context (root : Qc -> fl) (binv : Qc -> Qc -> fl) (crps : Qc -> Qc -> fl).
Lemma loop_ok c y est : call_v c y est -> forall n st F, (n <= Z.to_nat (vs_count c))%nat -> v_res st = vacc c F ->
  let rs := estimations (vs_prev c) est (filter (tried (vs_horizons c)) (down n)) (v_success st) in
  (exists r dets, v_loop root binv crps c y est n st = Ok r /\
    r = VSt (vacc c (fun k b => F k b +f fsum (map (cmp_score crps k) (comparisons root binv c y b rs)))) (v_counter st + pairs (vs_horizons c) rs) (v_valid st + successes rs)
      (v_inv st + failures rs + broken c n) (v_success st || any_ok rs) (if vs_ext c then fold_left (fun l m => add_error true (RModel m) l) (messages rs) (v_errors st) else v_errors st) (v_details st ++ dets) /\
    (existsb requires_variance (vs_metrics c) = true -> dets = if vs_ext c && vs_keep c then details root binv c y rs else []))
  \/ v_loop root binv crps c y est n st = Throw /\ vs_ext c = false /\ vs_maxinv c < v_inv st + failures rs.
Proof.
  intros C. induction n as [|n IH]; intros st F Ln Er; cbn zeta.
  - left. exists st, []. split; [reflexivity|]. cbn [down filter estimations comparisons flat_map pairs successes failures any_ok existsb messages map fold_right List.length details].
    split; [|intros _; destruct (vs_ext c && vs_keep c); reflexivity]. destruct st as [a0 b0 c0 d0 e0 f0 g0]. cbn in *. subst. rewrite Bool.orb_false_r, app_nil_r. unfold broken. cbn. f_equal; try lia.
    + unfold vacc. apply map_ext. intros k. apply map_ext. intros b. rewrite fadd_0_r. reflexivity.
    + destruct (vs_ext c); reflexivity.
  - cbn [v_loop down filter]. assert (B : 1 <= Z.of_nat (S n) <= vs_count c) by (assert (P := cv_pos _ _ _ C); lia).
    destruct (tried (vs_horizons c) (Z.of_nat (S n))) eqn:Et.
    + destruct (round_ok root binv crps c y est (Z.of_nat (S n)) st F C B Et Er) as (det & -> & Hd).
      assert (Bk : broken c (S n) = broken c n \/ n = 0%nat /\ broken c 1 = 0).
      { destruct n as [|n']; [right; split; auto; unfold broken; change (Z.of_nat 1) with 1 in Et; rewrite Et; reflexivity|left; unfold broken; replace (1 <=? Z.of_nat (S (S n'))) with true by lia; replace (1 <=? Z.of_nat (S n')) with true by lia; reflexivity]. }
      assert (Bk2 : broken c (S n) = broken c n) by (destruct Bk as [|(-> & K)]; [auto|rewrite K; reflexivity]). clear Bk.
      cbn [estimations]. destruct (est (Z.of_nat (S n)) (vs_prev c && v_success st)) as [msg|f v] eqn:Ee.
      * cbn [bind vfit_ok]. rewrite Bool.orb_false_r.
        set (st' := VSt _ _ _ _ _ _ _). specialize (IH st' F ltac:(lia) Er). cbn zeta in IH. cbn [st' v_success v_inv v_counter v_valid v_errors v_details] in IH.
        set (rs := estimations _ _ _ _) in *.
        change (failures ((Z.of_nat (S n), VFail msg) :: rs)) with (Z.of_nat (S (List.length (filter (fun r => negb (vfit_ok (snd r))) rs)))).
        replace (Z.of_nat (S (List.length (filter (fun r => negb (vfit_ok (snd r))) rs)))) with (failures rs + 1) by (unfold failures; lia).
        change (pairs (vs_horizons c) ((Z.of_nat (S n), VFail msg) :: rs)) with (pairs (vs_horizons c) rs). change (successes ((Z.of_nat (S n), VFail msg) :: rs)) with (successes rs).
        change (any_ok ((Z.of_nat (S n), VFail msg) :: rs)) with (any_ok rs). change (messages ((Z.of_nat (S n), VFail msg) :: rs)) with (msg :: messages rs). change (details root binv c y ((Z.of_nat (S n), VFail msg) :: rs)) with (details root binv c y rs).
        destruct IH as [(r & dets & E & Er' & D)|(E & X1 & X2)].
        -- left. exists r, dets. split; [exact E|]. split; [|exact D]. rewrite Er'. f_equal; [lia|]. cbn [fold_left]. destruct (vs_ext c); reflexivity.
        -- right. split; [exact E|]. split; [auto|lia].
      * cbn [vfit_ok]. rewrite Bool.orb_true_r.
        set (rs := estimations _ _ _ _) in *.
        assert (Fn : 0 <= failures rs) by (unfold failures; lia).
        change (failures ((Z.of_nat (S n), VFit f v) :: rs)) with (failures rs).
        change (pairs (vs_horizons c) ((Z.of_nat (S n), VFit f v) :: rs)) with (Z.of_nat (List.length (within (vs_horizons c) (Z.of_nat (S n)))) + pairs (vs_horizons c) rs).
        change (successes ((Z.of_nat (S n), VFit f v) :: rs)) with (Z.of_nat (S (List.length (filter (fun r => vfit_ok (snd r)) rs)))). replace (Z.of_nat (S (List.length (filter (fun r => vfit_ok (snd r)) rs)))) with (successes rs + 1) by (unfold successes; lia).
        change (any_ok ((Z.of_nat (S n), VFit f v) :: rs)) with true. change (messages ((Z.of_nat (S n), VFit f v) :: rs)) with (messages rs).
        destruct (negb (vs_ext c) && (vs_maxinv c <? v_inv st)) eqn:Ex; [right; split; [reflexivity|]; split; [destruct (vs_ext c); auto; discriminate|lia]|].
        cbn [bind]. match goal with |- context [v_loop _ _ _ c y est n ?s] => specialize (IH s _ ltac:(lia) eq_refl) end. cbn zeta in IH. cbn [v_success v_inv v_counter v_valid v_errors v_details] in IH. fold rs in IH.
        destruct IH as [(r & dets & E & Er' & D)|(E & X1 & X2)].
        -- left. exists r, (det ++ dets). split; [exact E|]. split.
           ++ rewrite Er'. f_equal; try lia. all: try (rewrite app_assoc; reflexivity). all: try reflexivity.
              unfold vacc. apply map_ext. intros k. apply map_ext. intros b. unfold comparisons. cbn [flat_map]. rewrite map_app, fsum_app, fadd_assoc. reflexivity.
           ++ intros Hv. rewrite (Hd f v eq_refl Hv), (D Hv). destruct (vs_ext c && vs_keep c); [|reflexivity]. unfold details. cbn [flat_map]. reflexivity.
        -- right. split; [exact E|]. split; [auto|lia].
    + rewrite (round_skip root binv crps c y est _ st C B Et). cbn [bind].
      assert (F0 : filter (tried (vs_horizons c)) (down n) = []).
      { apply not_tried. destruct (tried (vs_horizons c) (Z.of_nat n)) eqn:K; [|reflexivity]. rewrite (tried_mono _ (Z.of_nat n) (Z.of_nat (S n))) in Et; [discriminate|lia|auto]. }
      rewrite F0. left. eexists. exists []. split; [reflexivity|]. cbn [estimations comparisons flat_map pairs successes failures any_ok existsb messages map fold_right filter List.length details].
      split; [|intros _; destruct (vs_ext c && vs_keep c); reflexivity]. rewrite app_nil_r, Bool.orb_false_r.
      assert (Bk : broken c (S n) = 1). { unfold broken. replace (1 <=? Z.of_nat (S n)) with true by lia. destruct (tried (vs_horizons c) 1) eqn:K; [|reflexivity]. rewrite (tried_mono _ 1 (Z.of_nat (S n))) in Et; [discriminate|lia|auto]. }
      rewrite Bk. f_equal; try lia.
      * rewrite Er. unfold vacc. apply map_ext. intros k. apply map_ext. intros b. rewrite fadd_0_r. reflexivity.
      * unfold successes. cbn. lia.
      * unfold failures. cbn. lia.
      * destruct (vs_ext c); reflexivity.
Qed.
Lemma comparisons_length c y b rs : Z.of_nat (List.length (comparisons root binv c y b rs)) = pairs (vs_horizons c) rs.
Proof.
  unfold comparisons, pairs. induction rs as [|(se, o) rs IH]; [reflexivity|]. cbn [flat_map map fold_right fst snd]. rewrite app_length. destruct o; cbn [vfit_ok]; [|rewrite map_length]; cbn [List.length] in *; lia.
Qed.
(** The whole calculation. *)
Lemma calc_ok c y est v0 e0 d0 : call_v c y est ->
  let rs := runs c est in let inv := failures rs + (if tried (vs_horizons c) 1 then 0 else 1) in
  (v_calculate root binv crps c y est v0 e0 d0 = Throw <-> vs_ext c = false /\ (pairs (vs_horizons c) rs = 0 \/ vs_maxinv c < inv)) /\
  v_calculate root binv crps c y est v0 e0 d0 <> UB /\
  forall r, v_calculate root binv crps c y est v0 e0 d0 = Ok r -> exists dets,
  r = VSt (vacc c (fun k b => cmp_summary root k (cmp_mean crps k (comparisons root binv c y b rs)))) (pairs (vs_horizons c) rs) ((if vs_ext c then v0 else 0) + successes rs)
      inv (any_ok rs) (if vs_ext c then fold_left (fun l m => add_error true (RModel m) l) (messages rs) e0 else e0) (d0 ++ dets) /\
  (existsb requires_variance (vs_metrics c) = true -> dets = if vs_ext c && vs_keep c then details root binv c y rs else []).
Proof.
  intros C rs inv. assert (P := cv_pos _ _ _ C). unfold v_calculate. assert (S1 := cv_size _ _ _ C). assert (S2 := cv_count _ _ _ C).
  replace ((vs_count c =? 0) || (vs_sizes_T c <=? vs_count c)) with false by lia. destruct (cv_hs _ _ _ C) as (Hn & _ & _).
  replace (match vs_horizons c with [] => Throw | _ :: _ => if vs_T c - vs_count c <=? 0 then Throw else
    do st <- v_loop root binv crps c y est (Z.to_nat (vs_count c)) (VSt (repeat (repeat (Some 0%Qc) (vs_yy c)) (List.length (vs_metrics c))) 0 (if vs_ext c then v0 else 0) 0 false e0 d0);
    if negb (vs_ext c) && ((v_counter st =? 0) || (vs_maxinv c <? v_inv st)) then Throw else
    Ok (VSt (map2 (fun k r => map (v_finish root (v_counter st) k) r) (vs_metrics c) (v_res st)) (v_counter st) (v_valid st) (v_inv st) (v_success st) (v_errors st) (v_details st)) end)
  with (do st <- v_loop root binv crps c y est (Z.to_nat (vs_count c)) (VSt (repeat (repeat (Some 0%Qc) (vs_yy c)) (List.length (vs_metrics c))) 0 (if vs_ext c then v0 else 0) 0 false e0 d0);
    if negb (vs_ext c) && ((v_counter st =? 0) || (vs_maxinv c <? v_inv st)) then Throw else
    Ok (VSt (map2 (fun k r => map (v_finish root (v_counter st) k) r) (vs_metrics c) (v_res st)) (v_counter st) (v_valid st) (v_inv st) (v_success st) (v_errors st) (v_details st)))
  by (destruct (vs_horizons c); [congruence|replace (vs_T c - vs_count c <=? 0) with false by lia; reflexivity]).
  assert (R0 : repeat (repeat (Some 0%Qc : fl) (vs_yy c)) (List.length (vs_metrics c)) = vacc c (fun _ _ => Some 0%Qc)).
  { unfold vacc. assert (Rp : forall A (x : fl) (l : list A), repeat x (List.length l) = map (fun _ => x) l) by (induction l; cbn; congruence).
    assert (Rp2 : forall A (x : list fl) (l : list A), repeat x (List.length l) = map (fun _ => x) l) by (induction l; cbn; congruence).
    rewrite Rp2. apply map_ext. intros _. rewrite <- (seq_length (vs_yy c) 0) at 1. apply Rp. }
  unfold fl in *. rewrite R0.
  set (s0 := VSt _ _ _ _ _ _ _). assert (LO := loop_ok c y est C (Z.to_nat (vs_count c)) s0 (fun _ _ => Some 0%Qc) (le_n _) eq_refl). cbn zeta in LO. cbn [s0 v_success v_inv v_counter v_valid v_errors v_details] in LO.
  assert (Ers : estimations (vs_prev c) est (filter (tried (vs_horizons c)) (down (Z.to_nat (vs_count c)))) false = rs) by (unfold rs, runs; rewrite <- origins_down, Z2Nat.id by lia; reflexivity).
  rewrite Ers in LO. clear Ers.
  assert (Bk : failures rs + broken c (Z.to_nat (vs_count c)) = inv) by (unfold inv, broken; replace (1 <=? Z.of_nat (Z.to_nat (vs_count c))) with true by lia; destruct (tried (vs_horizons c) 1); reflexivity).
  assert (Iv : 0 <= inv - failures rs) by (unfold inv; destruct (tried _ 1); lia).
  destruct LO as [(r0 & dets & -> & -> & D)|(-> & X1 & X2)]; cbn [bind].
  - cbn [v_counter v_inv v_res v_valid v_success v_errors v_details]. rewrite !Z.add_0_l. rewrite Bk.
    destruct (negb (vs_ext c) && ((pairs (vs_horizons c) rs =? 0) || (vs_maxinv c <? inv))) eqn:Et.
    + split; [split; [intros _; destruct (vs_ext c); [discriminate|split; auto; lia]|reflexivity]|]. split; [discriminate|]. intros r Hr. discriminate.
    + split; [split; [discriminate|]; intros (X1 & X2); rewrite X1 in Et; cbn in Et; lia|]. split; [discriminate|]. intros r Hr. apply (f_equal (fun o => match o with Ok z => z | _ => s0 end)) in Hr. cbv beta iota in Hr. subst r. exists dets. split; [|exact D].
      f_equal. unfold vacc. rewrite <- (map_id (vs_metrics c)) at 1. rewrite map2_map. apply map_ext. intros k. rewrite map_map. apply map_ext. intros b. rewrite fadd_0_l.
      unfold v_finish, cmp_mean. rewrite comparisons_length. destruct k; reflexivity.
  - split; [split; [intros _; split; auto; right; lia|reflexivity]|]. split; [discriminate|]. intros r Hr. discriminate.
Qed.
End P.
