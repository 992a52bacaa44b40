(** C90, C91, C92: estimation of systems of equations (seemingly unrelated regressions). *)
From Verif Require Import SurModel SurSpec MatProofs MatDotProofs DataProofs LsProofs SurProofs SurProofs2 SurProofs3 SurProofs4 SurProofs5 SurProofs6 SurProofs7.
From Coq Require Import Lia ZifyBool.
Local Open Scope Z_scope.

(** LAPACK for 1 x 1 and 2 x 2 matrices, for the examples: it meets the contract. *)
Definition lapack12 (M : mat Qc) : list Qc * Z :=
  match rows M, cols M, data M with
  | 1%nat, 1%nat, a :: r => if qeqb a 0 then (data M, 1) else ((1 / a :: r)%Qc, 0)
  | 2%nat, 2%nat, a :: b :: c :: e :: r =>
      let det := (a * e - b * c)%Qc in
      if qeqb det 0 then (data M, 1) else ((e / det :: - b / det :: - c / det :: a / det :: r)%Qc, 0)
  | _, _, _ => (data M, 1)
  end.
Lemma product1 a b i j : product 1 a b i j = (a i 0%Z * b 0%Z j)%Qc.
Proof. unfold product. change (upto 1) with [0]. cbn [map]. unfold qsum. cbn [fold_right]. ring. Qed.
Lemma product2 a b i j : product 2 a b i j = (a i 0%Z * b 0%Z j + a i 1%Z * b 1%Z j)%Qc.
Proof. unfold product. change (upto 2) with [0; 1]. cbn [map]. unfold qsum. cbn [fold_right]. ring. Qed.
Lemma el2_00 a b c e r : el (Mat 2 2 (a :: b :: c :: e :: r)) 0 0 = a. Proof. reflexivity. Qed.
Lemma el2_10 a b c e r : el (Mat 2 2 (a :: b :: c :: e :: r)) 1 0 = b. Proof. reflexivity. Qed.
Lemma el2_01 a b c e r : el (Mat 2 2 (a :: b :: c :: e :: r)) 0 1 = c. Proof. reflexivity. Qed.
Lemma el2_11 a b c e r : el (Mat 2 2 (a :: b :: c :: e :: r)) 1 1 = e. Proof. reflexivity. Qed.
Lemma lapack12_sound : lapack_sound lapack12.
Proof.
  intros M d W Sq. unfold lapack12. destruct M as [r c l]. unfold nrows, ncols in *. cbn [rows cols data] in *. destruct r as [|[|[|]]]; try (intros [= _ K]; discriminate K).
  - destruct c as [|[|[|]]]; try (intros [= _ K]; discriminate K). destruct l as [|a r]; try (intros [= _ K]; discriminate K). destruct (qeqb_spec a 0%Qc) as [K|K]; intros [= <-]. split; [reflexivity|].
    unfold nrows, with_data. cbn [rows cols]. change (Z.of_nat 1) with 1. intros i j Hi Hj. assert (i = 0) by lia. assert (j = 0) by lia. subst. rewrite !product1.
    change (el (Mat 1 1 (a :: r)) 0 0) with a. change (el (Mat 1 1 ((1 / a)%Qc :: r)) 0 0) with (1 / a)%Qc. unfold iden. cbn [Z.eqb]. split; field; auto.
  - destruct c as [|[|[|]]]; try (intros [= _ K]; discriminate K). destruct l as [|a [|b [|c [|e r]]]]; try (intros [= _ K]; discriminate K).
    destruct (qeqb_spec (a * e - b * c)%Qc 0%Qc) as [K|K]; intros [= <-]. split; [reflexivity|]. unfold nrows, with_data. cbn [rows cols]. change (Z.of_nat 2) with 2.
    intros i j Hi Hj. cbn in Hi, Hj. assert (Ei : i = 0 \/ i = 1) by lia. assert (Ej : j = 0 \/ j = 1) by lia. destruct Ei as [-> | ->]; destruct Ej as [-> | ->]; (split; rewrite product2, ?el2_00, ?el2_10, ?el2_01, ?el2_11; unfold iden; cbn [Z.eqb Pos.eqb]; field; auto).
Qed.
Lemma lapack12_length M : length (fst (lapack12 M)) = length (data M).
Proof.
  unfold lapack12. destruct M as [r c l]. cbn [rows cols data]. destruct r as [|[|[|]]]; try reflexivity.
  - destruct c as [|[|]]; try reflexivity. destruct l as [|a l]; try reflexivity. destruct (qeqb a 0); reflexivity.
  - destruct c as [|[|[|]]]; try reflexivity. destruct l as [|a [|b [|c [|e r]]]]; try reflexivity. destruct (qeqb _ 0); reflexivity.
Qed.
Lemma lapack12_complete1 : lapack_complete 1 lapack12.
Proof.
  intros M g W R C Inv. unfold lapack12. destruct M as [r c l]. unfold nrows, ncols in *. cbn [rows cols data] in *. assert (r = 1%nat) by lia. assert (c = 1%nat) by lia. subst.
  unfold mat_ok in W. cbn in W. destruct l as [|a l]; cbn in W; [lia|]. destruct (qeqb_spec a 0%Qc) as [K|K]; [|reflexivity]. exfalso.
  destruct (Inv 0 0 ltac:(lia) ltac:(lia)) as (A & _). rewrite product1 in A. change (el (Mat 1 1 (a :: l)) 0 0) with a in A. rewrite K, Qcmult_0_l in A. discriminate A.
Qed.
Lemma lapack12_complete2 : lapack_complete 2 lapack12.
Proof.
  intros M g W R C Inv. unfold lapack12. destruct M as [r c l]. unfold nrows, ncols in *. cbn [rows cols data] in *. assert (r = 2%nat) by lia. assert (c = 2%nat) by lia. subst.
  unfold mat_ok in W. cbn in W. destruct l as [|a [|b [|c [|e r]]]]; cbn in W; try lia.
  destruct (qeqb_spec (a * e - b * c)%Qc 0%Qc) as [K|K]; [|reflexivity]. exfalso.
  destruct (Inv 0 0 ltac:(lia) ltac:(lia)) as (A & _), (Inv 0 1 ltac:(lia) ltac:(lia)) as (B & _), (Inv 1 0 ltac:(lia) ltac:(lia)) as (C' & _), (Inv 1 1 ltac:(lia) ltac:(lia)) as (D & _).
  rewrite product2 in A, B, C', D. rewrite el2_00, el2_01 in A, B. rewrite el2_10, el2_11 in C', D.
  assert (X : ((a * e - b * c) * (g 0%Z 0%Z * g 1%Z 1%Z - g 0%Z 1%Z * g 1%Z 0%Z))%Qc = 1%Qc).
  { transitivity ((a * g 0%Z 0%Z + c * g 1%Z 0%Z) * (b * g 0%Z 1%Z + e * g 1%Z 1%Z) - (a * g 0%Z 1%Z + c * g 1%Z 1%Z) * (b * g 0%Z 0%Z + e * g 1%Z 0%Z))%Qc; [ring|]. rewrite A, B, C', D. unfold iden. cbn [Z.eqb Pos.eqb]. ring. }
  rewrite K, Qcmult_0_l in X. discriminate X.
Qed.

(** ** C90 *)
(** With arrays of the reported lengths, and a restriction matrix if one is needed, no access is out of bounds. *)
Theorem c90_no_undefined lapack pt det_pd d y x storage work R maxp : sur_call lapack d y x storage work -> has_restrictions d R ->
  sur_calculate lapack pt det_pd d y x storage work R maxp <> UB.
Proof. intros. apply no_ub; auto. Qed.
Print Assumptions c90_no_undefined.
(** The members are in disjoint parts of the storage, and so are the temporary matrices in work (of the unrestricted estimation,
    of the restricted one with q free coefficients, and of the details). *)
Theorem c90_layout N m k restricted dets iter : 0 < N -> 0 < m -> 0 < k ->
  let d := declare N m k restricted dets iter in let km := k * m in
  packed (sur_storage d) (sur_blocks N m k (sd_details d)) /\ packed (sur_work d) (un_blocks k m) /\ m * m <= sur_work d /\
  (forall q, sd_restricted d = true -> 0 <= q <= km -> packed (sur_work d) (r_blocks N m k q)) /\
  (forall q, sd_details d = true -> 0 <= q <= km -> packed (sur_work d) (det_blocks km q)).
Proof.
  intros PN Pm Pk d km. assert (P1 : 0 < km) by (unfold km; nia). assert (P2 : 0 < N * m) by nia. assert (M1 : m <= km) by (unfold km; nia). assert (M2 : k <= km) by (unfold km; nia).
  assert (M3 : m * m <= km * km) by nia. assert (M4 : k * k <= km * km) by nia. assert (M5 : km <= km * km) by nia. assert (P3 : 0 <= N * m * km) by nia.
  assert (Wk : k * k + km <= sur_work d /\ m * m <= sur_work d /\ (sd_restricted d = true -> k * k + 2 * (km * km) + 3 * (N * m * km) + N * m + km <= sur_work d) /\ (sd_details d = true -> 2 * (km * km) <= sur_work d)).
  { unfold d, declare, sur_work. destruct (negb (iter =? 0)); cbn [sd_N sd_m sd_k sd_restricted sd_details]; fold km; [|destruct restricted, dets]; repeat split; intros; try discriminate; lia. }
  destruct Wk as (W1 & W2 & W3 & W4). assert (Ek : km = k * m) by reflexivity.
  split; [|split; [|split; [exact W2|split]]].
  - apply layout_packed.
    + intros v Hv. apply in_app_or in Hv. fold km in Hv. destruct Hv as [Hv|Hv]; [|destruct (sd_details d); [|destruct Hv]]; repeat (destruct Hv as [<-|Hv]; [clear - P1 P2 Pm; nia|]); destruct Hv.
    + fold km. unfold d, sur_storage, declare. destruct (negb (iter =? 0)); cbn [sd_N sd_m sd_k sd_restricted sd_details app fold_right]; fold km; [lia|]. destruct dets; cbn [app fold_right]; lia.
  - apply layout_packed; [intros v Hv; repeat (destruct Hv as [<-|Hv]; [nia|]); destruct Hv|]. cbn [fold_right]. fold km. lia.
  - intros q Rs Hq. specialize (W3 Rs). assert (Q1 : q * km <= km * km) by (clear - Hq P1; nia). assert (Q2 : N * m * q <= N * m * km) by (clear - Hq P2; nia). apply layout_packed; fold km.
    + intros v Hv. repeat (destruct Hv as [<-|Hv]; [clear - P1 P2 Pm Pk Hq; nia|]). destruct Hv.
    + cbn [fold_right]. lia.
  - intros q Dt Hq. specialize (W4 Dt). assert (Q1 : km * q <= km * km) by (clear - Hq P1; nia). apply layout_packed; [intros v Hv; repeat (destruct Hv as [<-|Hv]; [clear - P1 Hq; nia|]); destruct Hv|]. cbn [fold_right]. lia.
Qed.
Print Assumptions c90_layout.
(** Calculate throws if there are no data, if the object was made for smaller data, or if the restrictions do not fit. *)
Theorem c90_rejects lapack pt det_pd d y x storage work R maxp :
  let N := nrows y in let m := ncols y in let k := ncols x in let need := declare N m k (sd_restricted d) (sd_details d) (sd_iter d) in
  N < 1 \/ m < 1 \/ k < 1 \/ sur_storage d < sur_storage need \/ sur_work d < sur_work need \/
  (exists R0, R = Some R0 /\ (nrows R0 <> k * m \/ k * m < ncols R0)) \/ (sd_iter d <> 0 /\ (R = None \/ maxp = 0%Qc \/ exists R0, R = Some R0 /\ ncols R0 <> k * m)) ->
  sur_calculate lapack pt det_pd d y x storage work R maxp = Throw.
Proof.
  intros N m k need H. destruct (calc_cases lapack pt det_pd d (rows y) (cols y) (cols x) y x storage work R maxp eq_refl eq_refl eq_refl) as [(E & _)|([C1 C2 C3 C4 C5 C6 C7] & _)]; [exact E|]. exfalso.
  fold (nrows y) (ncols y) (ncols x) in C4, C5. fold N m k in C4, C5. fold need in C4, C5. unfold N, m, k, nrows, ncols in H.
  destruct H as [H|[H|[H|[H|[H|[(R0 & ER & H)|(It & H)]]]]]]; try lia.
  - destruct (Z.eq_dec (sd_iter d) 0) as [It|It]; [specialize (C7 It); rewrite ER in C7; lia|]. destruct (C6 It) as (_ & R1 & E1 & A & B). assert (R1 = R0) by congruence. subst. lia.
  - destruct (C6 It) as (Mp & R1 & E1 & A & B). destruct H as [H|[H|(R0 & E0 & H)]]; [congruence|congruence|]. assert (R1 = R0) by congruence. subst. lia.
Qed.
Print Assumptions c90_rejects.
(** Without restrictions: every equation has its least squares coefficients. Nothing else has a sum of squares as small. *)
Theorem c90_ols lapack pt det_pd d y x storage work R maxp u : sur_call lapack d y x storage work -> sd_restricted d = false ->
  sur_calculate lapack pt det_pd d y x storage work R maxp = Ok u ->
  let N := nrows y in let m := ncols y in let k := ncols x in let s := u_est u in let b := el (s_beta s) in
  fitted_by (rows y) (cols y) (cols x) (el y) (el x) b (s_beta s) (s_yhat s) (s_resid s) (s_rvar s) /\
  normal N m k (el y) (el x) b /\
  (forall c j, 0 <= j < m -> (ssr N k (el y) (el x) b j <= ssr N k (el y) (el x) c j)%Qc) /\
  (forall c j, 0 <= j < m -> (ssr N k (el y) (el x) c j <= ssr N k (el y) (el x) b j)%Qc -> forall i, 0 <= i < k -> c i j = b i j).
Proof.
  intros Call Rs E N m k s b. destruct (un_ok lapack pt det_pd d y x storage work R maxp Call u E Rs) as (Ck & g & n1 & n2 & sa & U & _).
  assert (Nm := un_normal y x g n1 n2 true sa s U). split; [exact (un_fitted y x g n1 n2 true sa s U)|]. split; [exact Nm|]. split.
  - intros c j Hj. apply ssr_min. intros i Hi. apply Nm; auto.
  - intros c j Hj L. apply (ssr_unique N k g (el y) (el x) b c j); auto. intros i l Hi Hl. apply (un_inv _ _ _ _ _ _ _ _ _ _ _ U i l Hi Hl).
Qed.
Print Assumptions c90_ols.
(** gamma lists the coefficients equation by equation; its covariance is that of the residuals times the inverse of X'X; and
    condition_number is the product of the norms of X'X and of its inverse. *)
Theorem c90_variance lapack pt det_pd d y x storage work R maxp u : sur_call lapack d y x storage work -> sd_restricted d = false ->
  sur_calculate lapack pt det_pd d y x storage work R maxp = Ok u ->
  let m := ncols y in let k := ncols x in let s := u_est u in
  exists g n1 n2, inverse_of k (xtx (nrows y) (el x)) g /\
  (nrows (s_gamma s) = k * m /\ ncols (s_gamma s) = 1 /\ nrows (s_gvar s) = k * m /\ ncols (s_gvar s) = k * m) /\
  (forall i j, 0 <= i < k -> 0 <= j < m -> el (s_gamma s) (j * k + i) 0 = el (s_beta s) i j) /\
  (forall i j i' j', 0 <= i < k -> 0 <= j < m -> 0 <= i' < k -> 0 <= j' < m -> el (s_gvar s) (j * k + i) (j' * k + i') = (el (s_rvar s) j j' * g i i')%Qc) /\
  is_norm1 k k (xtx (nrows y) (el x)) n1 /\ is_norm1 k k g n2 /\ s_cn s = (n1 * n2)%Qc /\ (1 <= s_cn s)%Qc.
Proof.
  intros Call Rs E m k s. destruct (un_ok lapack pt det_pd d y x storage work R maxp Call u E Rs) as (Ck & g & n1 & n2 & sa & U & _). exists g, n1, n2.
  assert (Pk : 0 < k) by (unfold k, ncols; destruct Ck; lia). assert (I := un_inv _ _ _ _ _ _ _ _ _ _ _ U).
  destruct (un_gamma _ _ _ _ _ _ _ _ _ _ _ U) as (G1 & G2 & _ & G4). assert (Gv := un_gvar _ _ _ _ _ _ _ _ _ _ _ U). cbn iota in Gv. destruct Gv as (V1 & V2 & _ & V4). fold s in G1, G2, G4, V1, V2, V4.
  assert (N1 := un_n1 _ _ _ _ _ _ _ _ _ _ _ U). assert (N2 := un_n2 _ _ _ _ _ _ _ _ _ _ _ U).
  split; [apply inv_xx; exact I|]. split; [unfold k, m, nrows, ncols; rewrite G1, G2, V1, V2; lia|]. split; [|split].
  - intros i j Hi Hj. rewrite G4; [|unfold m, k, ncols in *; nia|lia]. fold (ncols x). fold k. destruct (pair_div j i k Hi) as (-> & ->). reflexivity.
  - intros i j i' j' Hi Hj Hi' Hj'. rewrite V4; [|unfold m, k, ncols in *; nia|unfold m, k, ncols in *; nia]. apply kron_at; auto.
  - split; [|split; [apply norm_spec; auto|split; [exact (un_cn _ _ _ _ _ _ _ _ _ _ _ U)|]]].
    + apply norm_spec; auto.
    + unfold s. rewrite (un_cn _ _ _ _ _ _ _ _ _ _ _ U). apply (cond_ge1 k (product (Z.of_nat (rows y)) (fun i l => el x l i) (el x)) g); auto.
Qed.
Print Assumptions c90_variance.
(** The details: variances from the covariance of the coefficients, two-sided probabilities with N degrees of freedom; the
    log-likelihood is that of the determinant of the covariances of the residuals. *)
Theorem c90_details lapack pt det_pd d y x storage work R maxp u : sur_call lapack d y x storage work -> sd_restricted d = false ->
  sur_calculate lapack pt det_pd d y x storage work R maxp = Ok u ->
  let k := ncols x in let s := u_est u in
  log_determinant det_pd (s_rvar s) (u_det u) /\
  if sd_details d then exists dd, u_details u = Some dd /\ details_of pt (rows y) (cols y) (cols x) (el (s_beta s)) (fun i j => el (s_gvar s) (j * k + i) (j * k + i)) dd
  else u_details u = None.
Proof.
  intros Call Rs E k s. destruct (un_ok lapack pt det_pd d y x storage work R maxp Call u E Rs) as (Ck & g & n1 & n2 & sa & U & _ & _ & D & De). fold s in U, D, De.
  destruct (sh_rvar _ _ _ _ (un_shaped _ _ _ _ _ _ _ _ _ _ _ U)) as (V1 & V2 & _). split; [apply (det_spec _ (cols y)); auto|].
  destruct (sd_details d) eqn:Dt; [|unfold details_are in De; rewrite Dt in De; exact De].
  destruct (details_spec pt d (rows y) (cols y) (cols x) None _ _ _ (ck_k _ _ _ _ _ _ Ck) Dt De) as (dd & E2 & H1 & H2 & H3). exists dd. split; [exact E2|].
  assert (Gv := un_gvar _ _ _ _ _ _ _ _ _ _ _ U). cbn iota in Gv. destruct Gv as (_ & _ & _ & V4).
  assert (Eq : forall i j, 0 <= i < k -> 0 <= j < Z.of_nat (cols y) -> var_of None (kronf (cols x) (cols x) (el (s_rvar s)) g) (j * k + i) = el (s_gvar s) (j * k + i) (j * k + i)).
  { intros i j Hi Hj. cbn [var_of]. rewrite V4; auto; unfold k, ncols in *; nia. }
  destruct H1 as (A1 & A2 & A3 & A4). split; [split; [auto|split; [auto|split; [auto|]]]|split; [exact H2|]].
  - intros i j Hi Hj. rewrite A4 by auto. apply Eq; auto.
  - intros i j Hi Hj. destruct (H3 i j Hi Hj) as (p & E3 & T). exists p. split; [exact E3|]. rewrite <- (Eq i j Hi Hj). exact T.
Qed.
Print Assumptions c90_details.
(** If X'X has an inverse and the determinant can be calculated, an object declared for the data estimates the system;
    if it has none, Calculate throws. *)
Theorem c90_solves lapack pt det_pd dets y x storage work maxp g :
  let d := declare (nrows y) (ncols y) (ncols x) false dets 0 in
  sur_call lapack d y x storage work -> 0 < nrows y -> 0 < ncols y -> 0 < ncols x ->
  inverse_of (ncols x) (xtx (nrows y) (el x)) g -> lapack_complete (ncols x) lapack -> (ncols y = 1 \/ forall W, det_pd W <> None) ->
  exists u, sur_calculate lapack pt det_pd d y x storage work None maxp = Ok u.
Proof.
  intros d Call PN Pm Pk Inv Cp Dp. assert (Cl := Call). destruct Cl as [So Le Wy Wx Rx SS SW].
  assert (Ck : checks d (rows y) (cols y) (cols x) None maxp). { unfold nrows, ncols in *. constructor; [lia|lia|lia|apply Z.le_refl|apply Z.le_refl|intros K; destruct K; reflexivity|auto]. }
  destruct (calc_un lapack pt det_pd d (rows y) (cols y) (cols x) y x storage work None maxp So Le Wy Wx eq_refl Rx eq_refl eq_refl SS SW Ck eq_refl) as (X & HX & _ & O).
  destruct (inv_total lapack _ _ _ _ g Cp HX) as (xi & Ei). { apply inv_xx. exact Inv. }
  destruct (O xi Ei) as (n1 & n2 & s & o & _ & (W & _ & D) & F). destruct o as [v|]; [destruct F as (dt & F & _); eauto|].
  exfalso. destruct (Nat.eqb_spec (cols y) 1) as [E1|E1]; [discriminate|]. destruct Dp as [Dp|Dp]; [unfold ncols in Dp; lia|]. apply (Dp W). auto.
Qed.
Print Assumptions c90_solves.
Theorem c90_singular lapack pt det_pd d y x storage work R maxp : sur_call lapack d y x storage work -> has_restrictions d R ->
  (forall g, ~ inverse_of (ncols x) (xtx (nrows y) (el x)) g) -> sur_calculate lapack pt det_pd d y x storage work R maxp = Throw.
Proof.
  intros Call HR No. destruct (sur_calculate lapack pt det_pd d y x storage work R maxp) as [u| |] eqn:E; [|reflexivity|destruct (no_ub _ _ _ _ _ _ _ _ _ _ Call HR E)]. exfalso.
  destruct (sd_restricted d) eqn:Rs.
  - destruct (HR Rs) as (R0 & ER & WR & Pq). destruct (Z.eq_dec (sd_iter d) 0) as [It|It].
    + destruct (r_ok lapack pt det_pd d y x storage work R maxp Call u R0 E Rs It ER WR Pq) as (_ & s1 & g1 & m1 & m2 & sa & U & _). apply (No g1). apply inv_xx. apply (un_inv _ _ _ _ _ _ _ _ _ _ _ U).
    + destruct (search_ok lapack pt det_pd d y x storage work R maxp Call u R0 E Rs It ER WR) as (_ & s1 & g1 & m1 & m2 & sa & R' & U & _). apply (No g1). apply inv_xx. apply (un_inv _ _ _ _ _ _ _ _ _ _ _ U).
  - destruct (un_ok lapack pt det_pd d y x storage work R maxp Call u E Rs) as (_ & g & n1 & n2 & sa & U & _). apply (No g). apply inv_xx. apply (un_inv _ _ _ _ _ _ _ _ _ _ _ U).
Qed.
Print Assumptions c90_singular.

(** Two equations, a constant and 0, 1, 2, 3. *)
Definition q (a b : Z) : Qc := (qz a / qz b)%Qc.
Definition y42 : mat Qc := Mat 4 2 (map qz [1; 3; 4; 4; 2; 1; 1; 0]).
Definition x42 : mat Qc := Mat 4 2 (map qz [1; 1; 1; 1; 0; 1; 2; 3]).
Definition det2 (W : mat Qc) : option Qc := Some (el W 0 0 * el W 1 1 - el W 0 1 * el W 1 0)%Qc.
Definition pt1 (n : Z) (v : Qc) : Qc := (1 / (1 + v))%Qc.
Ltac qeq := vm_compute; repeat first [apply Qc_is_canon; reflexivity | f_equal].
Example c90_ex : let d := declare 4 2 2 false true 0 in
  sur_call lapack12 d y42 x42 (repeat 0%Qc 60) (repeat 0%Qc 40) /\ has_restrictions d None /\ (exists g, inverse_of 2 (xtx 4 (el x42)) g) /\ lapack_complete 2 lapack12 /\ (forall W, det2 W <> None) /\
  exists u dd, sur_calculate lapack12 pt1 det2 d y42 x42 (repeat 0%Qc 60) (repeat 0%Qc 40) None 0 = Ok u /\ u_details u = Some dd /\
    el (s_beta (u_est u)) 0 0 = q 3 2 /\ el (s_beta (u_est u)) 1 0 = qz 1 /\ el (s_beta (u_est u)) 0 1 = q 19 10 /\ el (s_beta (u_est u)) 1 1 = q (-3) 5 /\
    el (s_resid (u_est u)) 1 0 = q 1 2 /\ el (s_rvar (u_est u)) 0 0 = q 1 4 /\ el (d_var dd) 0 0 = q 7 40 /\ s_cn (u_est u) = qz 20.
Proof.
  split; [constructor; [apply lapack12_sound|apply lapack12_length|vm_compute; lia|vm_compute; lia|reflexivity|vm_compute; discriminate|vm_compute; discriminate]|].
  split; [intros K; discriminate K|]. split.
  { exists (el (Mat 2 2 [q 7 10; q (-3) 10; q (-3) 10; q 1 5])). intros i j Hi Hj. assert (Ei : i = 0 \/ i = 1) by lia. assert (Ej : j = 0 \/ j = 1) by lia. destruct Ei as [-> | ->]; destruct Ej as [-> | ->]; split; qeq. }
  split; [apply lapack12_complete2|]. split; [discriminate|].
  do 2 eexists. split; [vm_compute; reflexivity|]. split; [reflexivity|]. repeat split; qeq.
Qed.

(** ** C91 *)
(** Given restrictions beta = R gamma: the coefficients, fitted values, residuals and covariances belong together; gamma
    minimises the sum of squares weighted with the inverse of the covariances S0 of the least squares residuals, it is the
    only minimum, and its covariance is the inverse of R'(W o X'X)R. *)
Theorem c91_gls lapack pt det_pd d y x storage work R maxp u : sur_call lapack d y x storage work -> sd_restricted d = true -> sd_iter d = 0 ->
  mat_ok R -> (0 < cols R)%nat -> lapack_complete (ncols y) lapack ->
  sur_calculate lapack pt det_pd d y x storage work (Some R) maxp = Ok u ->
  let N := nrows y in let m := ncols y in let k := ncols x in let n := ncols R in let s := u_est u in let ga := fun l => el (s_gamma s) l 0 in
  let obj := fun W h => sys_ssr N m W (residual k (el y) (el x) (restricted k n (el R) h)) in
  (nrows (s_gamma s) = n /\ ncols (s_gamma s) = 1 /\ nrows (s_gvar s) = n /\ ncols (s_gvar s) = n) /\
  fitted_by (rows y) (cols y) (cols x) (el y) (el x) (restricted k n (el R) ga) (s_beta s) (s_yhat s) (s_resid s) (s_rvar s) /\
  exists b0, normal N m k (el y) (el x) b0 /\
  ((exists G, inverse_of m (res_cov N k (el y) (el x) b0) G) -> exists W, inverse_of m (res_cov N k (el y) (el x) b0) W /\
    (forall h, (obj W ga <= obj W h)%Qc) /\ (forall h, (obj W h <= obj W ga)%Qc -> forall l, 0 <= l < n -> h l = ga l) /\
    inverse_of n (info_matrix N m k W (el x) (el R)) (el (s_gvar s))).
Proof.
  intros Call Rs It WR Pq Cp E N m k n s ga obj. destruct (r_ok lapack pt det_pd d y x storage work (Some R) maxp Call u R E Rs It eq_refl WR Pq) as (Ck & s1 & g1 & m1 & m2 & sa & U & g & n1 & n2 & Rr & _).
  destruct Ck as [PN Pm Pk _ _ _ _]. destruct (r_gamma _ _ _ _ _ _ _ _ _ _ _ _ Rr) as (G1 & G2 & _), (r_gvar _ _ _ _ _ _ _ _ _ _ _ _ Rr) as (V1 & V2 & _).
  split; [unfold nrows, ncols, s in *; rewrite G1, G2, V1, V2; auto|].
  split; [apply co_fitted; exact (r_co _ _ _ _ _ _ _ _ _ _ _ _ Rr)|].
  exists (el (s_beta s1)). split; [exact (un_normal y x _ _ _ _ _ _ U)|]. intros HG. eexists.
  destruct (sh_rvar _ _ _ _ (un_shaped _ _ _ _ _ _ _ _ _ _ _ U)) as (A & B & C). destruct (un_fitted y x _ _ _ _ _ _ U) as (_ & _ & _ & Hv).
  assert (Iw := weights lapack (cols y) (sc_sound _ _ _ _ _ _ Call) (s_rvar s1) _ C A B (proj2 (proj2 (proj2 Hv))) Cp HG). split; [exact Iw|].
  destruct (gls_best (rows y) (cols y) (cols x) (cols R) y x R PN Pk Pm _ g n1 n2 s _ Rr Iw) as (B1 & B2 & B3). auto.
Qed.
Print Assumptions c91_gls.
(** If the least squares coefficients meet the restrictions, they are the result. *)
Theorem c91_same_as_ols lapack pt det_pd d y x storage work R maxp u b0 h : sur_call lapack d y x storage work -> sd_restricted d = true -> sd_iter d = 0 ->
  mat_ok R -> (0 < cols R)%nat -> lapack_complete (ncols y) lapack ->
  sur_calculate lapack pt det_pd d y x storage work (Some R) maxp = Ok u ->
  let N := nrows y in let m := ncols y in let k := ncols x in let n := ncols R in
  normal N m k (el y) (el x) b0 -> (exists G, inverse_of m (res_cov N k (el y) (el x) b0) G) ->
  (forall i j, 0 <= i < k -> 0 <= j < m -> b0 i j = restricted k n (el R) h i j) ->
  (forall l, 0 <= l < n -> el (s_gamma (u_est u)) l 0 = h l) /\ forall i j, 0 <= i < k -> 0 <= j < m -> el (s_beta (u_est u)) i j = b0 i j.
Proof.
  intros Call Rs It WR Pq Cp E N m k n Nm HG Eq. destruct (r_ok lapack pt det_pd d y x storage work (Some R) maxp Call u R E Rs It eq_refl WR Pq) as (Ck & s1 & g1 & m1 & m2 & sa & U & g & n1 & n2 & Rr & _).
  destruct Ck as [PN Pm Pk _ _ _ _].
  assert (E1 : forall i j, 0 <= i < k -> 0 <= j < m -> el (s_beta s1) i j = b0 i j).
  { intros i j Hi Hj. apply (normal_unique N k (fun i l => el x l i) (el x) g1 (el y) (el (s_beta s1)) b0 j); auto.
    - intros a b Ha Hb. apply (un_inv _ _ _ _ _ _ _ _ _ _ _ U a b Ha Hb).
    - intros a Ha. apply (un_normal y x _ _ _ _ _ _ U a j Ha Hj). }
  destruct (sh_rvar _ _ _ _ (un_shaped _ _ _ _ _ _ _ _ _ _ _ U)) as (A & B & C). destruct (fitted_ext y x _ b0 _ _ _ _ E1 (un_fitted y x _ _ _ _ _ _ U)) as (_ & _ & _ & Hv).
  assert (Iw := weights lapack (cols y) (sc_sound _ _ _ _ _ _ Call) (s_rvar s1) _ C A B (proj2 (proj2 (proj2 Hv))) Cp HG).
  assert (Gm := gls_same (rows y) (cols y) (cols x) (cols R) y x R PN Pk Pm _ g n1 n2 (u_est u) b0 h Rr Iw Nm Eq). split; [exact Gm|].
  intros i j Hi Hj. destruct (co_beta _ _ _ _ _ _ _ (r_co _ _ _ _ _ _ _ _ _ _ _ _ Rr)) as (_ & _ & _ & Hb). rewrite Hb by auto. rewrite Eq by auto. apply st_ext. intros l Hl. rewrite Gm by auto. reflexivity.
Qed.
Print Assumptions c91_same_as_ols.
(** Variances R V R' and probabilities of the restricted coefficients. *)
Theorem c91_details lapack pt det_pd d y x storage work R maxp u : sur_call lapack d y x storage work -> sd_restricted d = true -> sd_iter d = 0 ->
  mat_ok R -> (0 < cols R)%nat -> sur_calculate lapack pt det_pd d y x storage work (Some R) maxp = Ok u ->
  let k := ncols x in let n := ncols R in let s := u_est u in
  log_determinant det_pd (s_rvar s) (u_det u) /\
  if sd_details d then exists dd, u_details u = Some dd /\ details_of pt (rows y) (cols y) (cols x) (el (s_beta s))
    (fun i j => sum_to n (fun l => sum_to n (fun l' => el R (j * k + i) l * el (s_gvar s) l l' * el R (j * k + i) l'))%Qc) dd
  else u_details u = None.
Proof.
  intros Call Rs It WR Pq E k n s. destruct (r_ok lapack pt det_pd d y x storage work (Some R) maxp Call u R E Rs It eq_refl WR Pq) as (Ck & s1 & g1 & m1 & m2 & sa & U & g & n1 & n2 & Rr & _ & _ & D & De).
  fold s in Rr, D, De. destruct (sh_rvar _ _ _ _ (r_shaped _ _ _ _ _ _ _ _ _ _ _ _ Rr)) as (V1 & V2 & _). split; [apply (det_spec _ (cols y)); auto|].
  destruct (sd_details d) eqn:Dt; [|unfold details_are in De; rewrite Dt in De; exact De].
  destruct (details_spec pt d (rows y) (cols y) (cols x) (Some R) _ _ _ (ck_k _ _ _ _ _ _ Ck) Dt De) as (dd & E2 & H1 & H2 & H3). exists dd. split; [exact E2|].
  destruct (r_gvar _ _ _ _ _ _ _ _ _ _ _ _ Rr) as (_ & _ & _ & V4).
  assert (Eq : forall i j, var_of (Some R) g (j * k + i) = sum_to n (fun l => sum_to n (fun l' => el R (j * k + i) l * el (s_gvar s) l l' * el R (j * k + i) l'))%Qc).
  { intros i j. cbn [var_of]. apply st_ext. intros l Hl. apply st_ext. intros l' Hl'. rewrite V4 by auto. reflexivity. }
  destruct H1 as (A1 & A2 & A3 & A4). split; [split; [auto|split; [auto|split; [auto|]]]|split; [exact H2|]].
  - intros i j Hi Hj. rewrite A4 by auto. apply Eq; auto.
  - intros i j Hi Hj. destruct (H3 i j Hi Hj) as (p & E3 & T). exists p. split; [exact E3|]. unfold k, ncols in *. rewrite <- (Eq i j). exact T.
Qed.
Print Assumptions c91_details.
(** The condition number that a restricted estimation reports is not that of the matrix R'(W o X'X)R that is inverted: this
    matrix has one element, so its condition number is 1. *)
Definition r1 : mat Qc := Mat 2 1 (map qz [1; 1]).
Definition y1 : mat Qc := Mat 3 1 (map qz [1; 3; 4]).
Definition x1 : mat Qc := Mat 3 2 (map qz [1; 1; 1; 0; 1; 2]).
Theorem c91_condition_refuted : exists storage work u, sur_call lapack12 (declare 3 1 2 true false 0) y1 x1 storage work /\
  sur_calculate lapack12 pt1 det2 (declare 3 1 2 true false 0) y1 x1 storage work (Some r1) 0 = Ok u /\ ncols r1 = 1 /\ s_cn (u_est u) <> 1%Qc.
Proof.
  exists (repeat 0%Qc 20), (repeat 0%Qc 60). eexists. split; [constructor; [apply lapack12_sound|apply lapack12_length|vm_compute; lia|vm_compute; lia|reflexivity|vm_compute; discriminate|vm_compute; discriminate]|].
  split; [vm_compute; reflexivity|]. split; [reflexivity|]. vm_compute. intros K. apply (f_equal this) in K. discriminate K.
Qed.
Print Assumptions c91_condition_refuted.
(** A restricted model without restrictions dereferences a null pointer instead of throwing. *)
Theorem c91_null_refuted lapack pt det_pd dets y x storage work maxp : 0 < nrows y -> 0 < ncols y -> 0 < ncols x ->
  sur_calculate lapack pt det_pd (declare (nrows y) (ncols y) (ncols x) true dets 0) y x storage work None maxp = UB.
Proof.
  intros PN Pm Pk. set (d := declare _ _ _ _ _ _). destruct (calc_cases lapack pt det_pd d (rows y) (cols y) (cols x) y x storage work None maxp eq_refl eq_refl eq_refl) as [(_ & C)|(_ & ->)]; [|reflexivity].
  exfalso. apply C. unfold nrows, ncols in *. constructor; [lia|lia|lia|apply Z.le_refl|apply Z.le_refl|intros K; destruct K; reflexivity|auto].
Qed.
Print Assumptions c91_null_refuted.
(** Equal slopes in two equations without constants: W has the elements of the inverse of S0. *)
Definition x41 : mat Qc := Mat 4 1 (map qz [1; 1; 1; 1]).
Definition r21 : mat Qc := Mat 2 1 (map qz [1; 1]).
Example c91_ex : let d := declare 4 2 1 true true 0 in
  sur_call lapack12 d y42 x41 (repeat 0%Qc 60) (repeat 0%Qc 90) /\ mat_ok r21 /\ lapack_complete 2 lapack12 /\
  exists u dd, sur_calculate lapack12 pt1 det2 d y42 x41 (repeat 0%Qc 60) (repeat 0%Qc 90) (Some r21) 0 = Ok u /\ u_details u = Some dd /\
    el (s_beta (u_est u)) 0 0 = el (s_beta (u_est u)) 0 1 /\ el (s_gamma (u_est u)) 0 0 = q 12 7 /\ el (d_var dd) 0 1 = q 3 224.
Proof.
  split; [constructor; [apply lapack12_sound|apply lapack12_length|vm_compute; lia|vm_compute; lia|reflexivity|vm_compute; discriminate|vm_compute; discriminate]|].
  split; [vm_compute; lia|]. split; [apply lapack12_complete2|]. do 2 eexists. split; [vm_compute; reflexivity|]. split; [reflexivity|]. split; [qeq|]. split; qeq.
Qed.

(** ** C92 *)
(** The significance search ends in one of two ways. Either all coefficients of the unrestricted estimates pass at once; or
    some are left: these are free, all others are zero and have no probability, the estimates are the restricted ones for
    this choice, and, unless the iterations were used up, all that are left have a small probability. In every iteration
    at least one coefficient is removed. *)
Theorem c92_search lapack pt det_pd d y x storage work R maxp u : sur_call lapack d y x storage work -> sd_restricted d = true -> 0 < sd_iter d -> mat_ok R ->
  sur_calculate lapack pt det_pd d y x storage work (Some R) maxp = Ok u ->
  let N := nrows y in let m := ncols y in let k := ncols x in let s := u_est u in
  (u_iter u = 0 /\ normal N m k (el y) (el x) (el (s_beta s)) /\
   forall i j, 0 <= i < k -> 0 <= j < m -> forall p, two_sided pt N (el (s_beta s) i j) (el (s_gvar s) (j * k + i) (j * k + i)) p -> at_most maxp p) \/
  exists sig R', u_R u = Some R' /\ picks (k * m) sig R' /\ NoDup sig /\ sig <> [] /\ (forall a, In a sig -> 0 <= a < k * m) /\
    0 < u_iter u <= sd_iter d /\ Z.of_nat (length sig) + u_iter u <= k * m /\
    fitted_by (rows y) (cols y) (cols x) (el y) (el x) (restricted k (Z.of_nat (length sig)) (el R') (fun l => el (s_gamma s) l 0)) (s_beta s) (s_yhat s) (s_resid s) (s_rvar s) /\
    (forall i j, 0 <= i < k -> 0 <= j < m -> ~ In (j * k + i) sig -> el (s_beta s) i j = 0%Qc) /\
    (sd_details d = true -> exists dd, u_details u = Some dd /\ forall i j, 0 <= i < k -> 0 <= j < m -> exists p, nth_error (d_prob dd) (Z.to_nat (j * k + i)) = Some p /\
       (~ In (j * k + i) sig -> p = None) /\ (u_iter u = sd_iter d \/ (In (j * k + i) sig -> at_most maxp p))).
Proof.
  intros Call Rs It WR E N m k s. destruct (search_ok lapack pt det_pd d y x storage work (Some R) maxp Call u R E Rs ltac:(lia) eq_refl WR) as (Ck & s1 & g1 & m1 & m2 & sa & R' & U & Fd & ER & D & De). fold s in Fd, D, De.
  assert (Pk := ck_k _ _ _ _ _ _ Ck). assert (Pm := ck_m _ _ _ _ _ _ Ck).
  assert (Ps : forall p, passes maxp p = true -> at_most maxp p). { intros [v|] H; [|discriminate]. exists v. split; [reflexivity|]. unfold passes in H. destruct (qleb_spec v maxp); auto. discriminate. }
  destruct Fd as [(E1 & I0 & HZ & [Hi|Hp])|(sig & Sg & I1 & I2 & I3)]; [lia| |].
  - left. rewrite E1. split; [exact I0|]. split; [exact (un_normal y x _ _ _ _ _ _ U)|]. intros i j Hi Hj p T.
    assert (Hn : 0 <= j * k + i < Z.of_nat (cols x * cols y)) by (unfold k, m, ncols in *; nia). specialize (Hp (j * k + i) Hn).
    unfold prob_of in Hp. fold (ncols x) in Hp. fold k in Hp. destruct (pair_div j i k Hi) as (X1 & X2). rewrite X1, X2 in Hp. cbn [var_of] in Hp.
    assert (Gv := un_gvar _ _ _ _ _ _ _ _ _ _ _ U). cbn iota in Gv. destruct Gv as (_ & _ & _ & V4). rewrite <- V4 in Hp by (rewrite Nat.mul_comm; exact Hn).
    apply Ps in Hp. destruct Hp as (v & Hv & Lv). exists v. split; [|exact Lv]. rewrite <- Hv.
    fold (nrows y). fold N. set (bb := el (s_beta s1) i j) in *. set (vv := el (s_gvar s1) (j * k + i) (j * k + i)) in *. destruct T as (T1 & T2 & T3 & T4). destruct (prob_spec pt N bb vv) as (Q1 & Q2 & Q3 & Q4).
    destruct (Qc_dec vv 0%Qc) as [[L|L]|L]; [rewrite T4, Q4 by auto; auto|rewrite T1, Q1 by auto; auto|]. destruct (Qc_eq_dec bb 0%Qc) as [B|B]; [rewrite T3, Q3 by auto; auto|rewrite T2, Q2 by auto; auto].
  - right. exists sig, R'. split; [exact ER|]. destruct (sg_R _ _ _ _ _ _ _ _ _ Sg) as ((A & B & C & F) & _). destruct (sg_res _ _ _ _ _ _ _ _ _ Sg) as (sp & bp & gi & n1 & n2 & _ & Rr).
    assert (Km : k * m = Z.of_nat (cols x * cols y)) by (unfold k, m, ncols; lia).
    split; [split; [rewrite Km, Nat2Z.id; exact A|split; [exact B|]]|].
    { intros l c En a Ha. assert (Lt : (l < length sig)%nat) by (apply nth_error_Some; rewrite En; discriminate). rewrite F by lia. unfold sel. rewrite Nat2Z.id, (nth_error_nth _ _ _ En). rewrite Z.eqb_sym. reflexivity. }
    split; [exact (sg_nodup _ _ _ _ _ _ _ _ _ Sg)|]. split; [exact (sg_ne _ _ _ _ _ _ _ _ _ Sg)|]. split; [rewrite Km; exact (sg_range _ _ _ _ _ _ _ _ _ Sg)|]. split; [exact I1|]. split; [lia|].
    split; [apply co_fitted; exact (r_co _ _ _ _ _ _ _ _ _ _ _ _ Rr)|].
    assert (Out : forall i j, 0 <= i < k -> 0 <= j < m -> 0 <= j * k + i < Z.of_nat (cols x * cols y)) by (unfold k, m, ncols; intros; nia).
    split.
    { intros i j Hi Hj Hn. assert (Z0 := beta_sel lapack d (rows y) (cols y) (cols x) y x (Some R) maxp Ck sig s R' _ Sg (Out i j Hi Hj) Hn). fold (ncols x) in Z0. fold k in Z0. destruct (pair_div j i k Hi) as (X1 & X2). rewrite X1, X2 in Z0. exact Z0. }
    intros Dt. unfold details_are in De. rewrite Dt in De. destruct De as (dd & E2 & _ & E3). exists dd. split; [exact E2|]. intros i j Hi Hj. specialize (Out i j Hi Hj).
    exists (prob_of pt (rows y) (cols x) s (Some R') (el (s_gvar s)) (j * k + i)). split.
    { rewrite E3, nth_error_map. change (upto (Z.of_nat (cols x * cols y))) with (zrange 0 (Z.of_nat (cols x * cols y))). rewrite zrange_nth by lia. cbn [option_map]. rewrite Z2Nat.id by lia. rewrite Z.add_0_l. reflexivity. }
    split; [intros Hn; apply (prob_sel lapack pt d (rows y) (cols y) (cols x) y x (Some R) maxp Ck sig s R' _ _ Sg Out Hn)|]. destruct I3 as [I3|I3]; [left; exact I3|right; intros Hs; apply Ps, I3, Hs].
Qed.
Print Assumptions c92_search.
(** With at least as many iterations as coefficients, the second case is always a fixed point: every coefficient has a small
    probability or is zero without one. *)
Theorem c92_fixed_point lapack pt det_pd d y x storage work R maxp u dd : sur_call lapack d y x storage work -> sd_restricted d = true -> mat_ok R ->
  ncols x * ncols y <= sd_iter d -> sd_details d = true ->
  sur_calculate lapack pt det_pd d y x storage work (Some R) maxp = Ok u -> 0 < u_iter u -> u_details u = Some dd ->
  u_iter u < ncols x * ncols y /\
  forall i j, 0 <= i < ncols x -> 0 <= j < ncols y -> exists p, nth_error (d_prob dd) (Z.to_nat (j * ncols x + i)) = Some p /\ (at_most maxp p \/ p = None /\ el (s_beta (u_est u)) i j = 0%Qc).
Proof.
  intros Call Rs WR Li Dt E Pi Ed.
  assert (Pit : 0 < sd_iter d). { assert (C := calc_ok _ _ _ _ _ _ _ _ _ _ _ E). destruct C. unfold ncols in *. nia. }
  destruct (c92_search _ _ _ _ _ _ _ _ _ _ _ Call Rs Pit WR E) as [(I0 & _)|(sig & R' & _ & _ & _ & Ne & _ & I1 & I2 & _ & Z0 & H)]; [lia|].
  assert (Ls : (0 < length sig)%nat) by (destruct sig; [contradiction|cbn; lia]). split; [lia|]. intros i j Hi Hj. destruct (H Dt) as (dd' & E1 & H1). assert (dd' = dd) by congruence. subst dd'.
  destruct (H1 i j Hi Hj) as (p & E2 & H2 & H3). exists p. split; [exact E2|]. destruct (in_dec Z.eq_dec (j * ncols x + i) sig) as [Hs|Hs]; [left|right].
  - destruct H3 as [H3|H3]; [lia|auto].
  - split; [auto|apply Z0; auto].
Qed.
Print Assumptions c92_fixed_point.
(** The coefficients that are left minimise the weighted sum of squares among all that vanish elsewhere, with the inverse of the
    covariances of the residuals of other coefficients (those of the iteration before) as weights. *)
Theorem c92_estimates lapack pt det_pd d y x storage work R maxp u : sur_call lapack d y x storage work -> sd_restricted d = true -> 0 < sd_iter d -> mat_ok R ->
  lapack_complete (ncols y) lapack -> sur_calculate lapack pt det_pd d y x storage work (Some R) maxp = Ok u -> 0 < u_iter u ->
  let N := nrows y in let m := ncols y in let k := ncols x in let s := u_est u in let ga := fun l => el (s_gamma s) l 0 in
  exists sig R' b0, u_R u = Some R' /\ picks (k * m) sig R' /\ let n := Z.of_nat (length sig) in let obj := fun W h => sys_ssr N m W (residual k (el y) (el x) (restricted k n (el R') h)) in
  ((exists G, inverse_of m (res_cov N k (el y) (el x) b0) G) -> exists W, inverse_of m (res_cov N k (el y) (el x) b0) W /\
    (forall h, (obj W ga <= obj W h)%Qc) /\ (forall h, (obj W h <= obj W ga)%Qc -> forall l, 0 <= l < n -> h l = ga l) /\
    inverse_of n (info_matrix N m k W (el x) (el R')) (el (s_gvar s))).
Proof.
  intros Call Rs It WR Cp E Pi N m k s ga. destruct (search_ok lapack pt det_pd d y x storage work (Some R) maxp Call u R E Rs ltac:(lia) eq_refl WR) as (Ck & s1 & g1 & m1 & m2 & sa & R' & U & Fd & ER & _). fold s in Fd.
  destruct Ck as [PN Pm Pk _ _ _ _]. destruct Fd as [(_ & I0 & _)|(sig & Sg & _)]; [lia|].
  destruct (sg_R _ _ _ _ _ _ _ _ _ Sg) as ((A & B & C & F) & _). destruct (sg_res _ _ _ _ _ _ _ _ _ Sg) as (sp & bp & gi & n1 & n2 & Co & Rr). exists sig, R', bp. split; [exact ER|].
  assert (Km : k * m = Z.of_nat (cols x * cols y)) by (unfold k, m, ncols; lia).
  split; [split; [rewrite Km, Nat2Z.id; exact A|split; [exact B|]]|].
  { intros l c En a Ha. assert (Lt : (l < length sig)%nat) by (apply nth_error_Some; rewrite En; discriminate). rewrite F by lia. unfold sel. rewrite Nat2Z.id, (nth_error_nth _ _ _ En). rewrite Z.eqb_sym. reflexivity. }
  intros n obj HG. destruct (co_fitted y x bp sp Co) as (_ & _ & _ & Hv). destruct (has_shape _ _ _ _ Hv) as (A2 & B2 & C2).
  eexists. assert (Iw := weights lapack (cols y) (sc_sound _ _ _ _ _ _ Call) (s_rvar sp) _ C2 A2 B2 (proj2 (proj2 (proj2 Hv))) Cp HG). split; [exact Iw|].
  destruct (gls_best (rows y) (cols y) (cols x) (length sig) y x R' PN Pk Pm _ gi n1 n2 s _ Rr Iw) as (B3 & B4 & B5). auto.
Qed.
Print Assumptions c92_estimates.
(** If all coefficients pass at once, the matrix of restrictions is left at zero: the reported variances of all coefficients are
    zero, although their covariance matrix is that of the unrestricted estimates. *)
Theorem c92_all_pass_refuted lapack pt det_pd d y x storage work R maxp u dd : sur_call lapack d y x storage work -> sd_restricted d = true -> 0 < sd_iter d -> mat_ok R ->
  sur_calculate lapack pt det_pd d y x storage work (Some R) maxp = Ok u -> u_iter u = 0 -> sd_details d = true -> u_details u = Some dd ->
  (exists g, inverse_of (ncols x) (xtx (nrows y) (el x)) g /\ forall i j, 0 <= i < ncols x -> 0 <= j < ncols y -> el (s_gvar (u_est u)) (j * ncols x + i) (j * ncols x + i) = (el (s_rvar (u_est u)) j j * g i i)%Qc) /\
  forall i j, 0 <= i < ncols x -> 0 <= j < ncols y -> el (d_var dd) i j = 0%Qc.
Proof.
  intros Call Rs It WR E I0 Dt Ed. destruct (search_ok lapack pt det_pd d y x storage work (Some R) maxp Call u R E Rs ltac:(lia) eq_refl WR) as (Ck & s1 & g1 & m1 & m2 & sa & R' & U & Fd & ER & D & De).
  assert (Pk := ck_k _ _ _ _ _ _ Ck). destruct Fd as [(E1 & _ & HZ & _)|(sig & Sg & I1 & _)]; [|lia]. split.
  - exists g1. split; [apply inv_xx; apply (un_inv _ _ _ _ _ _ _ _ _ _ _ U)|]. intros i j Hi Hj. rewrite E1. assert (Gv := un_gvar _ _ _ _ _ _ _ _ _ _ _ U). cbn iota in Gv. destruct Gv as (_ & _ & _ & V4).
    rewrite V4 by (unfold ncols in *; nia). apply kron_at; auto.
  - intros i j Hi Hj. unfold details_are in De. rewrite Dt in De. destruct De as (dd' & E2 & (_ & _ & _ & H2) & _). assert (dd' = dd) by congruence. subst dd'. rewrite H2 by auto. cbn [var_of].
    destruct HZ as ((_ & B & _ & F) & _). rewrite B. rewrite (st_ext _ _ (fun _ => 0%Qc)); [apply st_zero|]. intros l Hl. rewrite (st_ext _ _ (fun _ => 0%Qc)); [apply st_zero|]. intros l' Hl'. rewrite (F _ l) by (unfold ncols in *; nia). ring.
Qed.
Print Assumptions c92_all_pass_refuted.
Definition y1b : mat Qc := Mat 3 1 (map qz [2; 2; 3]).
Definition r22 : mat Qc := Mat 2 2 (map qz [0; 0; 0; 0]).
Definition call92 y := sur_calculate lapack12 pt1 det2 (declare 3 1 2 false false 5) y x1 (repeat 0%Qc 30) (repeat 0%Qc 60) (Some r22).
Lemma call92_ok y : rows y = 3%nat -> mat_ok y -> sur_call lapack12 (declare 3 1 2 false false 5) y x1 (repeat 0%Qc 30) (repeat 0%Qc 60).
Proof. intros E W. constructor; [apply lapack12_sound|apply lapack12_length|exact W|vm_compute; lia|rewrite E; reflexivity|vm_compute; discriminate|vm_compute; discriminate]. Qed.
(** The slope is removed in the first iteration; with 1, 3, 4 and a larger limit everything passes at once. *)
Example c92_ex : (exists u R', call92 y1b (q 1 11) = Ok u /\ u_R u = Some R' /\ u_iter u = 1 /\ data R' = map qz [1; 0; 0; 0] /\ cols R' = 1%nat /\ el (s_beta (u_est u)) 0 0 = q 7 3 /\ el (s_beta (u_est u)) 1 0 = 0%Qc) /\
  (exists u dd, call92 y1 (q 1 2) = Ok u /\ u_iter u = 0 /\ u_details u = Some dd /\ el (s_beta (u_est u)) 1 0 = q 3 2 /\ el (d_var dd) 1 0 = 0%Qc /\ nth_error (d_prob dd) 1 = Some (Some 0%Qc)).
Proof.
  split; do 2 eexists; (split; [vm_compute; reflexivity|]); (split; [reflexivity|]).
  - split; [reflexivity|]. split; [qeq|]. split; [reflexivity|]. split; qeq.
  - split; [reflexivity|]. split; [qeq|]. split; qeq.
Qed.
