(** Proofs about the interpolation of a row or column: the loop over the matrix does what the loop over a list does. *)
From Verif Require Export MqProofs2.
From Verif Require Import ArrSpec ArrProofs DataProofs DataProofs2 Prop_Arr.
From Coq Require Import Lia ZifyBool.
Local Open Scope Z_scope.

Section Sim.
Variable addr : Z -> Z.
Variable n : Z.
Variable D0 : list (option Qc).
Hypothesis inj : forall a b, 0 <= a < n -> 0 <= b < n -> addr a = addr b -> a = b.
Hypothesis rng : forall a, 0 <= a < n -> 0 <= addr a < Z.of_nat (length D0).
Record sim (d D : list (option Qc)) : Prop := {
  sim_n : Z.of_nat (length d) = n;
  sim_len : length D = length D0;
  sim_line : forall t, 0 <= t < n -> nth_error D (Z.to_nat (addr t)) = nth_error d (Z.to_nat t);
  sim_rest : forall p, (forall t, 0 <= t < n -> Z.to_nat (addr t) <> p) -> nth_error D p = nth_error D0 p }.
Lemma sim_rd d D t : sim d D -> 0 <= t < n -> rd D (addr t) = read d t.
Proof using rng.
  intros [S1 S2 S3 S4] Ht. pose proof (rng t Ht). unfold rd, read. replace (addr t <? 0) with false by lia. replace (t <? 0) with false by lia.
  rewrite S3 by auto. reflexivity.
Qed.
Lemma read_range {A} (d : list A) t v : read d t = Ok v -> 0 <= t < Z.of_nat (length d).
Proof.
  unfold read. destruct (Z.ltb_spec t 0); [discriminate|]. destruct (nth_error d (Z.to_nat t)) eqn:E; [|discriminate]. intros _.
  assert (Z.to_nat t < length d)%nat by (apply nth_error_Some; congruence). lia.
Qed.
Lemma sim_write d D t v d' : sim d D -> write d t v = Ok d' -> exists D', wr D (addr t) v = Ok D' /\ sim d' D'.
Proof using inj rng.
  intros [S1 S2 S3 S4] E. unfold write in E. destruct ((t <? 0) || (Z.of_nat (length d) <=? t)) eqn:K; [discriminate|]. injection E as <-.
  assert (Ht : 0 <= t < n) by lia. pose proof (rng t Ht). rewrite wr_ok by lia. eexists. split; [reflexivity|]. split.
  - rewrite upd_length. auto.
  - rewrite upd_length. auto.
  - intros u Hu. destruct (Z.eq_dec t u) as [<-|N].
    + rewrite !nth_error_upd_same; auto; lia.
    + rewrite !nth_error_upd_other; auto; [lia|]. intros Q. apply N. pose proof (rng u Hu). apply inj; auto. lia.
  - intros p Hp. rewrite nth_error_upd_other; auto.
Qed.
Lemma sim_fill v step : forall k d D i p c d' c', sim d D -> fill_loop d i v step p k c = Ok (d', c') ->
  exists D', fill_at addr D i v step p k c = Ok (D', c') /\ sim d' D'.
Proof using inj rng.
  induction k as [|k IH]; intros d D i p c d' c' SM E; cbn [fill_loop fill_at] in *.
  - injection E as <- <-. eauto.
  - destruct (write d (i - p) (Some (v - qz p * step)%Qc)) as [d1| |] eqn:W; try discriminate. cbn [bind] in E.
    destruct (sim_write _ _ _ _ _ SM W) as (D1 & W1 & SM1). rewrite W1. cbn [bind]. eapply IH; eauto.
Qed.
Lemma sim_interp : forall k d D i inm first len c d' c', sim d D -> interp_loop d i k inm first len c = Ok (d', c') ->
  exists D', interp_at addr D i k inm first len c = Ok (D', c') /\ sim d' D'.
Proof using inj rng.
  induction k as [|k IH]; intros d D i inm first len c d' c' SM E; cbn [interp_loop interp_at] in *.
  - injection E as <- <-. eauto.
  - destruct (read d i) as [x| |] eqn:Rx; try discriminate. cbn [bind] in E. pose proof (read_range _ _ _ Rx) as Hi. rewrite (sim_n _ _ SM) in Hi.
    rewrite (sim_rd d D i SM Hi), Rx. cbn [bind]. destruct x as [v|].
    + destruct inm.
      * destruct first as [f|]; [|discriminate]. cbn zeta in *.
        destruct (fill_loop d i v ((v - f) / qz len)%Qc 1 (Z.to_nat (len - 1)) c) as [[d1 c1]| |] eqn:F; try discriminate. cbn [bind] in E.
        destruct (sim_fill _ _ _ _ _ _ _ _ _ _ SM F) as (D1 & F1 & SM1). rewrite F1. cbn [bind]. eapply IH; eauto.
      * eapply IH; eauto.
    + cbn zeta in *. destruct inm; [eapply IH; eauto|].
      destruct (read d (i - 1)) as [f| |] eqn:Rf; try discriminate. cbn [bind] in E. pose proof (read_range _ _ _ Rf) as Hf. rewrite (sim_n _ _ SM) in Hf.
      rewrite (sim_rd d D (i - 1) SM Hf), Rf. cbn [bind]. eapply IH; eauto.
Qed.
End Sim.

Definition line_addr (by_row : bool) (M : mat (option Qc)) (i : Z) : Z -> Z := if by_row then row_addr M i else col_addr M i.
Lemma line_inj by_row M i a b : 0 <= i < n_vars by_row M -> 0 <= a < n_times by_row M -> 0 <= b < n_times by_row M ->
  line_addr by_row M i a = line_addr by_row M i b -> a = b.
Proof. unfold line_addr, row_addr, col_addr, pos, n_vars, n_times. destruct by_row; nia. Qed.
Lemma line_pos by_row M i a : line_addr by_row M i a = if by_row then pos M i a else pos M a i.
Proof. unfold line_addr, row_addr, col_addr, pos. destruct by_row; lia. Qed.
Lemma line_rng by_row M i a : mat_ok M -> 0 <= i < n_vars by_row M -> 0 <= a < n_times by_row M -> 0 <= line_addr by_row M i a < Z.of_nat (length (data M)).
Proof. intros W Hi Ha. rewrite line_pos. unfold n_vars, n_times in *. destruct by_row; apply pos_range; auto; split; auto. Qed.
Lemma sim_becomes by_row M i d' D' : mat_ok M -> 0 <= i < n_vars by_row M ->
  sim (line_addr by_row M i) (n_times by_row M) (data M) d' D' -> becomes M (with_line by_row M i d') (with_data M D').
Proof.
  intros W Hi [S1 S2 S3 S4]. split; auto.
  - intros a b I. rewrite entry_pos by (unfold inside, with_data, nrows, ncols in *; cbn; auto). unfold with_line. pose proof I as (I1 & I2).
    change (pos (with_data M D') a b) with (pos M a b). cbn [data with_data].
    unfold n_vars, n_times in *. destruct by_row.
    + destruct (Z.eqb_spec a i) as [->|N].
      * rewrite <- S3 by auto. rewrite line_pos. auto.
      * rewrite S4; [rewrite entry_pos; auto|]. intros t Ht. rewrite line_pos. intros Q. apply N.
        pose proof (inside_len M i t ltac:(split; auto)). pose proof (inside_len M a b I).
        destruct (pos_inj (nrows M) i t a b) as (Q1 & Q2); auto. unfold pos in *. lia.
    + destruct (Z.eqb_spec b i) as [->|N].
      * rewrite <- S3 by auto. rewrite line_pos. auto.
      * rewrite S4; [rewrite entry_pos; auto|]. intros t Ht. rewrite line_pos. intros Q. apply N.
        pose proof (inside_len M t i ltac:(split; auto)). pose proof (inside_len M a b I).
        destruct (pos_inj (nrows M) t i a b) as (Q1 & Q2); auto. unfold pos in *. lia.
  - intros k K. cbn [data with_data]. apply S4. intros t Ht Q. rewrite line_pos in Q. unfold n_vars, n_times in *.
    destruct by_row; [pose proof (pos_range M i t W ltac:(split; auto))|pose proof (pos_range M t i W ltac:(split; auto))]; lia.
Qed.
Theorem interpolate_line_ok by_row M i : mat_ok M -> 0 <= i < n_vars by_row M -> 0 < n_times by_row M ->
  exists r M' c d d', interpolate_line by_row M i = Ok (r, M', c) /\ line_of by_row M i d /\ interpolated d d' /\
    becomes M (with_line by_row M i d') M' /\ Z.of_nat (num_known d') = Z.of_nat (num_known d) + c.
Proof.
  intros W Hi HT. destruct (series_ok by_row M W HT i Hi) as (s & Es & Ls & Ns).
  assert (NE : s <> []) by (intros ->; cbn in Ls; lia).
  destruct (c14_interpolate_exact s NE) as (r & d' & c & E & IT & C). unfold interpolate in E. unfold interpolate_line. rewrite Es. cbn [bind].
  destruct (get_range_m s) as [[r0 m]| |] eqn:ER; try discriminate. cbn [bind] in *.
  assert (S0 : sim (line_addr by_row M i) (n_times by_row M) (data M) s (data M)).
  { split; auto. intros t Ht. rewrite Ns by auto. unfold obs. rewrite line_pos. unfold n_vars, n_times in *.
    destruct by_row; (rewrite entry_pos; [auto|split; auto]). }
  assert (inj : forall a b, 0 <= a < n_times by_row M -> 0 <= b < n_times by_row M -> line_addr by_row M i a = line_addr by_row M i b -> a = b) by (intros; eapply line_inj; eauto).
  assert (rng : forall a, 0 <= a < n_times by_row M -> 0 <= line_addr by_row M i a < Z.of_nat (length (data M))) by (intros; apply line_rng; auto).
  destruct m.
  - destruct (interp_loop s (i_start r0) (Z.to_nat (i_end r0 - i_start r0 + 1)) false None 1 0) as [[d1 c1]| |] eqn:EI; try discriminate.
    cbn [bind] in E. injection E as <- <- <-.
    destruct (sim_interp (line_addr by_row M i) (n_times by_row M) (data M) inj rng _ _ _ _ _ _ _ _ _ _ S0 EI) as (D' & ED & SD).
    change (if by_row then row_addr M i else col_addr M i) with (line_addr by_row M i). rewrite ED. cbn [bind].
    exists r0, (with_data M D'), c1, s, d1. split; auto. split; [split; auto|]. split; auto. split; auto. apply sim_becomes; auto.
  - injection E as <- <- <-. exists r0, M, 0, s, s. split; auto. split; [split; auto|]. split; auto. split; auto.
    pose proof (sim_becomes by_row M i s (data M) W Hi S0) as B. replace (with_data M (data M)) with M in B by (destruct M; auto). exact B.
Qed.
