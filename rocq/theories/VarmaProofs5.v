(** Proofs: restriction matrices. *)
From Verif Require Import VarmaModel VarmaSpec PolyProofs MatProofs MatProofs2 MatDotProofs MatProofs6 VarmaProofs VarmaProofs3 SplitProofs4 CostProofs.
From Coq Require Import Lia ZifyBool.
Local Open Scope Z_scope.

Definition zeros (r c : Z) (st : list Qc) : mat Qc := Mat (Z.to_nat r) (Z.to_nat c) (repeat 0%Qc (Z.to_nat (r * c)) ++ skipn (Z.to_nat (r * c)) st).
Lemma zeros_ok r c st : 0 <= r -> 0 <= c -> mat_ok (zeros r c st).
Proof. intros. unfold mat_ok, zeros. cbn [rows cols data]. rewrite app_length, repeat_length, Z2Nat.inj_mul by lia. lia. Qed.
Lemma zeros_el r c st i j : 0 <= r -> 0 <= c -> 0 <= i < r -> 0 <= j < c -> el (zeros r c st) i j = 0%Qc.
Proof.
  intros H1 H2 H3 H4. unfold el, entry. destruct (insideb _ i j); auto. unfold zeros, nrows. cbn [rows data]. rewrite Z2Nat.id by lia.
  assert (Z.to_nat (j * r + i) < Z.to_nat (r * c))%nat by nia. rewrite nth_error_app1 by (rewrite repeat_length; auto). rewrite nth_error_repeat by auto. auto.
Qed.
Lemma zeros_fill r c st : (Z.to_nat (r * c) <= length st)%nat -> fill 0%Qc (Z.to_nat (r * c)) st = Ok (data (zeros r c st)).
Proof. intros H. rewrite fill_ok by auto. auto. Qed.

(** ** General restrictions *)
Definition frees (idx is : list Z) : list Z := filter (fun i => negb (existsb (Z.eqb i) idx)) is.
Lemma frees_params n idx : frees idx (zrange 0 n) = free_params n idx.
Proof.
  unfold frees, free_params. apply filter_ext. intros i. destruct (existsb (Z.eqb i) idx) eqn:E.
  - apply existsb_exists in E as (x & Hx & E). destruct (in_dec Z.eq_dec i idx) as [Y|Y]; auto. exfalso. apply Y. replace i with x by lia. auto.
  - destruct (in_dec Z.eq_dec i idx) as [Y|Y]; auto. exfalso. assert (existsb (Z.eqb i) idx = true); [|congruence]. apply existsb_exists. exists i. split; auto. lia.
Qed.
Lemma mwrites_cons (M : mat Qc) p e l : mwrites M ((p, e) :: l) = do M' <- mwrites M [(p, e)]; mwrites M' l.
Proof. unfold mwrites. cbn [writes]. destruct e as [v| |]; cbn [bind]; auto. destruct (wr (data M) p v) as [d| |]; cbn [bind]; auto. Qed.
Fixpoint placed (n : Z) (fr : list Z) (j : Z) : list (Z * res Qc) := match fr with [] => [] | i :: t => (i + n * (j + 1), Ok 1%Qc) :: placed n t (j + 1) end.
Lemma general_writes idx : forall is j R, general_loop idx is j R = mwrites R (placed (nrows R) (frees idx is) j).
Proof.
  induction is as [|i is IH]; intros j R; cbn [general_loop frees filter]; [destruct R; reflexivity|]. destruct (existsb (Z.eqb i) idx); cbn [negb]; [apply IH|]. cbn [placed]. rewrite mwrites_cons. unfold set0, pos.
  unfold mwrites at 1 2. cbn [writes bind]. destruct (wr (data R) (i + nrows R * (j + 1)) 1%Qc) as [d| |]; cbn [bind]; auto. rewrite IH. reflexivity.
Qed.
Lemma placed_in n p e : forall fr j, In (p, e) (placed n fr j) <-> exists k i, nth_error fr k = Some i /\ p = i + n * (j + 1 + Z.of_nat k) /\ e = Ok 1%Qc.
Proof.
  induction fr as [|x fr IH]; intros j; cbn [placed]; [split; [intros []|intros ([|k] & i & E & _); discriminate]|]. split.
  - intros [E|H]; [injection E as <- <-; exists 0%nat, x; split; auto; split; auto; f_equal; f_equal; lia|]. apply IH in H as (k & i & E & -> & ->). exists (S k), i. split; auto. split; auto. f_equal. f_equal. lia.
  - intros ([|k] & i & E & -> & ->); [injection E as <-; left; f_equal; f_equal; f_equal; lia|]. right. apply IH. exists k, i. split; auto. split; auto. f_equal. f_equal. lia.
Qed.
Lemma frees_length_gt n idx : 0 <= n -> n - Z.of_nat (length idx) <= Z.of_nat (length (frees idx (zrange 0 n))).
Proof.
  intros Hn. set (used := filter (fun i => existsb (Z.eqb i) idx) (zrange 0 n)). assert (E : (length used + length (frees idx (zrange 0 n)) = length (zrange 0 n))%nat).
  { unfold used, frees. generalize (zrange 0 n). induction l as [|x l IH]; auto. cbn [filter]. destruct (existsb (Z.eqb x) idx); cbn [negb length]; lia. }
  rewrite zrange_length in E. assert (L : (length used <= length idx)%nat). { apply NoDup_incl_length; [apply NoDup_filter, zrange_NoDup|]. intros i Hi. apply filter_In in Hi as (_ & Hi). apply existsb_exists in Hi as (y & Hy & Q). replace i with y by lia. auto. }
  lia.
Qed.
Lemma frees_length_eq n idx : 0 <= n -> Z.of_nat (length (frees idx (zrange 0 n))) = n - Z.of_nat (length idx) -> NoDup idx /\ Forall (fun i => 0 <= i < n) idx.
Proof.
  intros Hn HE. set (used := filter (fun i => existsb (Z.eqb i) idx) (zrange 0 n)). assert (E : (length used + length (frees idx (zrange 0 n)) = length (zrange 0 n))%nat).
  { unfold used, frees. generalize (zrange 0 n). induction l as [|x l IH]; auto. cbn [filter]. destruct (existsb (Z.eqb x) idx); cbn [negb length]; lia. }
  rewrite zrange_length in E. assert (ND : NoDup used) by (apply NoDup_filter, zrange_NoDup). assert (IN : incl used idx). { intros i Hi. apply filter_In in Hi as (_ & Hi). apply existsb_exists in Hi as (y & Hy & Q). replace i with y by lia. auto. }
  assert (L : (length idx <= length used)%nat) by lia. split; [eapply NoDup_incl_NoDup; eauto|]. apply Forall_forall. intros i Hi. assert (X : In i used) by (eapply NoDup_length_incl; eauto). apply filter_In in X as (X & _). apply in_zrange in X. lia.
Qed.
Lemma frees_length n idx : 0 <= n -> NoDup idx -> Forall (fun i => 0 <= i < n) idx -> Z.of_nat (length (frees idx (zrange 0 n))) = n - Z.of_nat (length idx).
Proof. intros Hn ND F. assert (X := excluded_length (Z.to_nat n) idx ND). rewrite Z2Nat.id in X by lia. unfold excluded in X. rewrite Z2Nat.id in X by lia. apply X. auto. Qed.

Definition eqo (a : option Z) (i : Z) : bool := match a with Some x => x =? i | None => false end.
Lemma frees_NoDup idx n : NoDup (frees idx (zrange 0 n)).
Proof. apply NoDup_filter, zrange_NoDup. Qed.
Lemma general_ok n idx st : 0 <= n -> NoDup idx -> Forall (fun i => 0 <= i < n) idx -> let q := n - Z.of_nat (length idx) in
  exists R, general_loop idx (zrange 0 n) (-1) (zeros n q st) = Ok R /\ nrows R = n /\ ncols R = q /\ mat_ok R /\
    forall i j, 0 <= i < n -> 0 <= j < q -> el R i j = if eqo (nth_error (frees idx (zrange 0 n)) (Z.to_nat j)) i then 1%Qc else 0%Qc.
Proof.
  intros Hn ND F q. assert (FL := frees_length n idx Hn ND F). fold q in FL. assert (Q0 : 0 <= q) by lia. set (Z0 := zeros n q st). assert (W : mat_ok Z0) by (apply zeros_ok; lia).
  assert (NR : nrows Z0 = n) by (unfold Z0, zeros, nrows; cbn [rows]; lia). assert (NC : ncols Z0 = q) by (unfold Z0, zeros, ncols; cbn [cols]; lia).
  set (fr := frees idx (zrange 0 n)) in *. rewrite general_writes, NR. fold fr.
  assert (FB : forall k i, nth_error fr k = Some i -> 0 <= i < n /\ 0 <= Z.of_nat k < q). { intros k i E. assert (k < length fr)%nat by (apply nth_error_Some; congruence). apply nth_error_In in E. apply filter_In in E as (E & _). apply in_zrange in E. lia. }
  destruct (mwrites_ok (fun i j => Some (if eqo (nth_error fr (Z.to_nat j)) i then 1%Qc else 0%Qc)) (placed n fr (-1)) Z0 W) as (R & E & B).
  - intros p e H. apply placed_in in H as (k & i & E & -> & ->). destruct (FB k i E). exists i, (Z.of_nat k), 1%Qc. split; [split; lia|]. split; [unfold pos; rewrite NR; f_equal; f_equal; lia|]. split; auto. rewrite Nat2Z.id, E. cbn [eqo]. rewrite Z.eqb_refl. auto.
  - intros i j (Hi & Hj). destruct (eqo (nth_error fr (Z.to_nat j)) i) eqn:Q; cbn [eqo] in *.
    + left. destruct (nth_error fr (Z.to_nat j)) as [x|] eqn:E; [|discriminate]. cbn [eqo] in Q. apply in_map_iff. exists (i + n * (-1 + 1 + Z.of_nat (Z.to_nat j)), Ok 1%Qc). split; [cbn [fst]; unfold pos; rewrite NR; f_equal; f_equal; lia|]. apply placed_in. exists (Z.to_nat j), i. split; [rewrite E; f_equal; lia|auto].
    + right. rewrite entry_el by (auto; split; auto). f_equal. apply zeros_el; lia.
  - exists R. assert (B' : turns Z0 (fun i j => if eqo (nth_error fr (Z.to_nat j)) i then 1%Qc else 0%Qc) R) by exact B. split; auto. split; [rewrite (turns_nrows _ _ _ B'); auto|]. split; [rewrite (turns_ncols _ _ _ B'); auto|]. split; [eapply turns_ok; eauto|]. intros i j Hi Hj. apply (turns_el _ _ _ _ _ B'). split; lia.
Qed.
Lemma general_ub n idx st : 0 <= n -> let q := n - Z.of_nat (length idx) in 0 <= q -> length st = Z.to_nat (n * q) -> ~ (NoDup idx /\ Forall (fun i => 0 <= i < n) idx) -> general_loop idx (zrange 0 n) (-1) (zeros n q st) = UB.
Proof.
  intros Hn q Q0 LS H. assert (G := frees_length_gt n idx Hn). assert (NE : Z.of_nat (length (frees idx (zrange 0 n))) <> q) by (intros C; apply H, frees_length_eq; auto). fold q in G. rewrite general_writes. unfold mwrites. rewrite writes_ub; auto.
  - intros p e HI. apply placed_in in HI as (k & i & _ & _ & ->). eauto.
  - set (fr := frees idx (zrange 0 n)) in *. destruct (nth_error fr (Z.to_nat q)) as [i|] eqn:E; [|apply nth_error_None in E; lia].
    exists (i + n * (-1 + 1 + Z.of_nat (Z.to_nat q))), (Ok 1%Qc). assert (NR : nrows (zeros n q st) = n) by (unfold zeros, nrows; cbn [rows]; lia). rewrite NR. split; [apply placed_in; exists (Z.to_nat q), i; auto|].
    apply nth_error_In, filter_In in E as (E & _). apply in_zrange in E. unfold zeros. cbn [data]. rewrite app_length, repeat_length, skipn_length, LS. nia.
Qed.

(** ** Final form *)
Definition hit (g d : Z) : bool := (0 <=? d) && (d <? g * g) && (d mod (g + 1) =? 0).
Lemma hit_spec g a b : 1 <= g -> 0 <= a < g -> 0 <= b < g -> hit g (b * g + a) = (a =? b).
Proof.
  intros G Ha Hb. unfold hit. replace (b * g + a) with (a - b + b * (g + 1)) by ring. rewrite Z_mod_plus_full.
  assert (0 <= a - b + b * (g + 1)) by nia. assert (a - b + b * (g + 1) < g * g) by nia. destruct (Z.eqb_spec a b) as [-> |N].
  - rewrite Z.sub_diag, Z.mod_0_l by lia. lia.
  - assert ((a - b) mod (g + 1) <> 0); [|lia]. intros C. apply Z.mod_divide in C as (k & C); [|lia]. assert (k = 0) by nia. lia.
Qed.
Lemma final_loop_ok g q : 1 <= g -> forall m fuel row col R, mat_ok R -> 0 <= row -> 0 <= col -> q = col + Z.of_nat m -> (1 <= m)%nat -> (m <= fuel)%nat -> q <= ncols R -> row + Z.of_nat m * (g * g) <= nrows R ->
  exists R', final_loop fuel g row col q R = Ok R' /\ turns R (fun i j => if (col <=? j) && (j <? q) && hit g (i - row - (j - col) * (g * g)) then 1%Qc else el R i j) R'.
Proof.
  intros G. induction m as [|m IH]; intros fuel row col R W R0 C0 EQ M1 MF HC HR; [lia|]. destruct fuel as [|fuel]; [lia|]. cbn [final_loop].
  destruct (line_ok R g (fun j => row + j * (g + 1)) (fun _ => col) (fun _ => Ok 1%Qc) (fun i j => (j =? col) && hit g (i - row)) (fun _ _ => Some 1%Qc) W) as (R1 & E1 & B1).
  - intros t Ht. split; [split; [nia|lia]|]. split; [|eauto]. replace (row + t * (g + 1) - row) with (t * g + t) by ring. rewrite hit_spec by lia. lia.
  - intros i j (Hi & Hj) Hh. unfold hit in Hh. assert (D : (i - row) mod (g + 1) = 0) by lia. apply Z.mod_divide in D as (k & D); [|lia]. exists k. split; [nia|]. split; lia.
  - rewrite E1. cbn [bind]. assert (B1' : turns R (fun i j => if (j =? col) && hit g (i - row) then 1%Qc else el R i j) R1). { eapply becomes_ext; [exact B1|]. cbn beta. intros i j H. destruct ((j =? col) && hit g (i - row)); auto. apply entry_el; auto. }
    destruct (Z.eqb_spec (col + 1) q) as [EC|NC].
    + exists R1. split; auto. eapply turns_ext; [exact B1'|]. intros i j _. cbn beta. replace ((col <=? j) && (j <? q)) with (j =? col) by lia. destruct (Z.eqb_spec j col) as [-> |]; auto. replace (i - row - (col - col) * (g * g)) with (i - row) by ring. auto.
    + assert (W1 := turns_ok _ _ _ W B1'). assert (N1 := turns_nrows _ _ _ B1'). assert (N2 := turns_ncols _ _ _ B1'). destruct (IH fuel (row + g * g) (col + 1) R1) as (R2 & E2 & B2); auto; try lia; try nia.
      exists R2. split; auto. eapply turns_ext; [eapply turns_trans; eauto|]. intros i j H. cbn beta. rewrite (turns_el _ _ _ _ _ B1' H). cbn beta.
      replace (i - (row + g * g) - (j - (col + 1)) * (g * g)) with (i - row - (j - col) * (g * g)) by ring. destruct (Z.eqb_spec j col) as [-> |NJ].
      * replace ((col + 1 <=? col) && (col <? q)) with false by lia. replace ((col <=? col) && (col <? q)) with true by lia. replace (i - row - (col - col) * (g * g)) with (i - row) by ring. auto.
      * replace ((col + 1 <=? j) && (j <? q)) with ((col <=? j) && (j <? q)) by lia. auto.
Qed.
Lemma final_ok n g K st params q : 0 <= n -> 1 <= g -> 1 <= K -> params = n + K * (g * g) -> q = n + K ->
  exists R1 R, mwrites (zeros params q st) (map (fun r => (pos (zeros params q st) r r, Ok 1%Qc)) (zrange 0 n)) = Ok R1 /\ final_loop (Z.to_nat q) g n n q R1 = Ok R /\ nrows R = params /\ ncols R = q /\ mat_ok R /\
    (forall i j, 0 <= i < n -> 0 <= j < q -> el R i j = if i =? j then 1%Qc else 0%Qc) /\
    (forall c a b j, 0 <= c < K -> 0 <= a < g -> 0 <= b < g -> 0 <= j < q -> el R (n + c * (g * g) + b * g + a) j = if (j =? n + c) && (a =? b) then 1%Qc else 0%Qc).
Proof.
  intros Hn G HK EP EQ. assert (P0 : 0 <= params) by nia. set (Z0 := zeros params q st). assert (W : mat_ok Z0) by (apply zeros_ok; lia).
  assert (NR : nrows Z0 = params) by (unfold Z0, zeros, nrows; cbn [rows]; lia). assert (NC : ncols Z0 = q) by (unfold Z0, zeros, ncols; cbn [cols]; lia).
  assert (KG : K <= K * (g * g)) by (clear - G HK; assert (1 <= g * g) by nia; nia).
  destruct (line_ok Z0 n (fun r => r) (fun r => r) (fun _ => Ok 1%Qc) (fun i j => (i =? j) && (i <? n)) (fun _ _ => Some 1%Qc) W) as (R1 & E1 & B1).
  - intros t Ht. split; [split; lia|]. split; [lia|eauto].
  - intros i j (Hi & Hj) Hh. exists i. lia.
  - assert (B1' : turns Z0 (fun i j => if (i =? j) && (i <? n) then 1%Qc else 0%Qc) R1). { eapply becomes_ext; [exact B1|]. cbn beta. intros i j H. destruct ((i =? j) && (i <? n)); auto. rewrite entry_el by auto. destruct H. f_equal. apply zeros_el; lia. }
    assert (W1 := turns_ok _ _ _ W B1'). assert (N1 := turns_nrows _ _ _ B1'). assert (N2 := turns_ncols _ _ _ B1').
    destruct (final_loop_ok g q G (Z.to_nat K) (Z.to_nat q) n n R1 W1) as (R & E & B); try lia. exists R1, R. split; auto. split; auto.
    split; [rewrite (turns_nrows _ _ _ B); lia|]. split; [rewrite (turns_ncols _ _ _ B); lia|]. split; [eapply turns_ok; eauto|]. split.
    + intros i j Hi Hj. assert (IZ : inside Z0 i j) by (split; lia). assert (I1 : inside R1 i j) by (split; lia). rewrite (turns_el _ _ _ _ _ B I1), (turns_el _ _ _ _ _ B1' IZ). replace (i <? n) with true by lia. rewrite andb_true_r.
      replace ((n <=? j) && (j <? q) && hit g (i - n - (j - n) * (g * g))) with false; auto. symmetry. destruct (Z.leb_spec n j); auto. unfold hit. replace (0 <=? i - n - (j - n) * (g * g)) with false by nia. cbn [andb]. apply andb_false_r.
    + intros c a b j Hc Ha Hb Hj. set (i := n + c * (g * g) + b * g + a). assert (IB : n <= i < params) by (unfold i; nia). assert (IZ : inside Z0 i j) by (split; lia). assert (I1 : inside R1 i j) by (split; lia). rewrite (turns_el _ _ _ _ _ B I1), (turns_el _ _ _ _ _ B1' IZ). replace (i <? n) with false by lia. rewrite andb_false_r.
      replace ((n <=? j) && (j <? q) && hit g (i - n - (j - n) * (g * g))) with ((j =? n + c) && (a =? b)); auto.
      destruct (Z.leb_spec n j) as [Hj2|Hj2]; [|cbn [andb]; lia]. destruct (Z.ltb_spec j q); [|lia]. cbn [andb]. destruct (Z.eqb_spec j (n + c)) as [-> |NJ].
      * replace (i - n - (n + c - n) * (g * g)) with (b * g + a) by (unfold i; ring). rewrite hit_spec by lia. auto.
      * cbn [andb]. unfold hit. replace (i - n - (j - n) * (g * g)) with ((c - (j - n)) * (g * g) + b * g + a) by (unfold i; ring). assert (0 <= b * g + a < g * g) by nia. destruct (Z_lt_le_dec (c - (j - n)) 0).
        -- replace (0 <=? (c - (j - n)) * (g * g) + b * g + a) with false by nia. auto.
        -- replace ((c - (j - n)) * (g * g) + b * g + a <? g * g) with false by nia. rewrite andb_false_r. auto.
Qed.
(** Sum with one non-zero element. *)
Lemma restricted_single (R : mat Qc) gamma i k : 0 <= k < ncols R -> (forall j, 0 <= j < ncols R -> el R i j = if j =? k then 1%Qc else 0%Qc) -> restricted_value R gamma i = gamma k.
Proof.
  intros Hk H. unfold restricted_value, upto. rewrite map_map. change (qsum (map ?f (seq 0 ?n))) with (sumn f n).
  rewrite (sumn_ext _ (fun j => if (j =? Z.to_nat k)%nat then gamma (Z.of_nat j) else 0%Qc)).
  - rewrite (sumn_single (fun j => gamma (Z.of_nat j))). destruct (Nat.ltb_spec (Z.to_nat k) (Z.to_nat (ncols R))); [|lia]. f_equal. lia.
  - intros j Hj. rewrite H by lia. destruct (Z.eqb_spec (Z.of_nat j) k), (Nat.eqb_spec j (Z.to_nat k)); try lia; ring.
Qed.
Lemma restricted_none (R : mat Qc) gamma i : (forall j, 0 <= j < ncols R -> el R i j = 0%Qc) -> restricted_value R gamma i = 0%Qc.
Proof.
  intros H. unfold restricted_value, upto. rewrite map_map. change (qsum (map ?f (seq 0 ?n))) with (sumn f n). apply sumn_zero. intros j Hj. rewrite H by lia. ring.
Qed.
