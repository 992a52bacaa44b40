(** Properties C29 (Kronecker and diagonal products), C71 (products of matrices), C72 (element-wise
    operations). *)
From Verif Require Import MatSpec MatModel MatDotModel MatProofs MatProofs2 MatProofs3 MatProofs5 MatDotProofs.
From Coq Require Import Lia.
Local Open Scope Z_scope.

Definition q2 : mat Qc := Mat 2 2 [qz 1; qz 3; qz 2; qz 4].
Definition q23 : mat Qc := Mat 2 3 (map qz [1; 4; 2; 5; 3; 6]).
Definition qzero (r c : nat) : mat Qc := Mat r c (repeat (qz 0) (r * c)).
Ltac qeq := vm_compute; repeat first [apply Qc_is_canon; reflexivity | f_equal].

(** ** C29 *)
Theorem c29_kron (M B S : mat Qc) : mat_ok M -> mat_ok B -> mat_ok S ->
  if (nrows S =? nrows M * nrows B) && (ncols S =? ncols M * ncols B) then
    exists S', kron M B S = Ok S' /\ becomes S (kron_entry (entry M) (entry B) (nrows B) (ncols B)) S'
  else kron M B S = Throw.
Proof. exact (kron_ok M B S). Qed.
Print Assumptions c29_kron.
(** In other words: element (i, j) of the first times element (k, l) of the second is at (i p + k, j q + l). *)
Theorem c29_kron_place (M B : mat Qc) i j k l x y : mat_ok B -> entry M i j = Some x -> entry B k l = Some y ->
  kron_entry (entry M) (entry B) (nrows B) (ncols B) (i * nrows B + k) (j * ncols B + l) = Some (x * y)%Qc.
Proof.
  intros WB E1 E2. pose proof (entry_in B k l y E2) as (Hk & Hl). unfold kron_entry.
  rewrite !Z.div_add_l by lia. rewrite !(Z.div_small k), !(Z.div_small l), !Z.add_0_r by lia.
  rewrite !(Z.add_comm (_ * _)), !Z.mod_add by lia. rewrite !(Z.mod_small k), !(Z.mod_small l) by lia. rewrite E1, E2. auto.
Qed.
Print Assumptions c29_kron_place.
Theorem c29_kron_iden (M : mat Qc) h (S : mat Qc) : mat_ok M -> mat_ok S -> 0 <= h ->
  if (nrows S =? nrows M * h) && (ncols S =? ncols M * h) then
    exists S', kron_iden M h S = Ok S' /\ becomes S (kron_entry (entry M) (identity h) h h) S'
  else kron_iden M h S = Throw.
Proof. exact (kron_iden_ok M h S). Qed.
Print Assumptions c29_kron_iden.
Theorem c29_iden_kron (M : mat Qc) h (S : mat Qc) : mat_ok M -> mat_ok S -> 0 <= h ->
  if (nrows S =? nrows M * h) && (ncols S =? ncols M * h) then
    exists S', iden_kron M h S = Ok S' /\ becomes S (kron_entry (identity h) (entry M) (nrows M) (ncols M)) S'
  else iden_kron M h S = Throw.
Proof. exact (iden_kron_ok M h S). Qed.
Print Assumptions c29_iden_kron.
Theorem c29_tr_kron_iden (M : mat Qc) h (S : mat Qc) : mat_ok M -> mat_ok S -> 0 <= h ->
  if (nrows S =? ncols M * h) && (ncols S =? nrows M * h) then
    exists S', tr_kron_iden M h S = Ok S' /\ becomes S (kron_entry (fun i j => entry M j i) (identity h) h h) S'
  else tr_kron_iden M h S = Throw.
Proof. exact (tr_kron_iden_ok M h S). Qed.
Print Assumptions c29_tr_kron_iden.
(** Product with a diagonal matrix given by its diagonal, on either side. *)
Theorem c29_diag_dot (M B S : mat Qc) : mat_ok M -> mat_ok B -> mat_ok S ->
  nrows B = mlength M -> nrows S = mlength M -> ncols S = ncols B ->
  exists S', diag_dot M B S = Ok S' /\ becomes S (fun i j => omult (nth_error (data M) (Z.to_nat i)) (entry B i j)) S'.
Proof. exact (diag_dot_ok M B S). Qed.
Print Assumptions c29_diag_dot.
Theorem c29_dot_diag (M B S : mat Qc) : mat_ok M -> mat_ok B -> mat_ok S ->
  ncols M = mlength B -> nrows S = nrows M -> ncols S = mlength B -> nrows M = ncols M ->
  exists S', dot_diag M B S = Ok S' /\ becomes S (fun i j => omult (nth_error (data B) (Z.to_nat j)) (entry M i j)) S'.
Proof. exact (dot_diag_ok M B S). Qed.
Print Assumptions c29_dot_diag.
(** DotDiag of a matrix that is not square passes the size checks but misses columns, or reads outside. *)
Theorem c29_dot_diag_refuted :
  (exists M B S S', mat_ok M /\ mat_ok B /\ mat_ok S /\ ncols M = mlength B /\ nrows S = nrows M /\ ncols S = mlength B /\
     dot_diag M B S = Ok S' /\ entry S' 0 2 <> omult (nth_error (data B) 2) (entry M 0 2)) /\
  (exists M B S, mat_ok M /\ mat_ok B /\ mat_ok S /\ ncols M = mlength B /\ nrows S = nrows M /\ ncols S = mlength B /\ dot_diag M B S = UB).
Proof.
  split.
  - exists q23, (Mat 3 1 (map qz [7; 8; 9])), (qzero 2 3). eexists. do 3 (split; [vm_compute; auto|]). do 3 (split; [reflexivity|]). split; [vm_compute; reflexivity|]. vm_compute. discriminate.
  - exists (qzero 3 2), (qzero 2 1), (qzero 3 2). do 3 (split; [vm_compute; auto|]). do 3 (split; [reflexivity|]). vm_compute. reflexivity.
Qed.
Print Assumptions c29_dot_diag_refuted.
Example c29_case : mat_ok q2 /\ (exists S', kron q2 q2 (qzero 4 4) = Ok S' /\ entry S' 1 2 = Some (qz 6)) /\
  (exists S', dot_diag q2 (Mat 2 1 [qz 5; qz 6]) (qzero 2 2) = Ok S' /\ entry S' 0 1 = Some (qz 12)).
Proof. split; [vm_compute; auto|]. split; eexists; (split; [vm_compute; reflexivity|]); qeq. Qed.

(** ** C71: alpha * product + beta * storage. Matrices without rows or columns are excluded (BLAS reports
    a wrong leading dimension for them). *)
Theorem c71_dot (M B S : mat Qc) alpha beta : mat_ok M -> mat_ok B -> mat_ok S ->
  ncols M = nrows B -> nrows S = nrows M -> ncols S = ncols B -> 0 < nrows M -> 0 < ncols M ->
  exists S', dot M B S alpha beta = Ok S' /\ becomes S (scaled alpha beta (product (ncols M) (el M) (el B)) S) S'.
Proof. exact (dot_ok M B S alpha beta). Qed.
Print Assumptions c71_dot.
Theorem c71_dot_tr (M B S : mat Qc) alpha beta : mat_ok M -> mat_ok B -> mat_ok S ->
  ncols M = ncols B -> nrows S = nrows M -> ncols S = nrows B -> 0 < nrows M -> 0 < nrows B ->
  exists S', dot_tr M B S alpha beta = Ok S' /\ becomes S (scaled alpha beta (product (ncols M) (el M) (el_t B)) S) S'.
Proof. exact (dot_tr_ok M B S alpha beta). Qed.
Print Assumptions c71_dot_tr.
Theorem c71_tr_dot (M B S : mat Qc) alpha beta : mat_ok M -> mat_ok B -> mat_ok S ->
  nrows M = nrows B -> nrows S = ncols M -> ncols S = ncols B -> 0 < nrows M -> 0 < ncols M ->
  exists S', tr_dot M B S alpha beta = Ok S' /\ becomes S (scaled alpha beta (product (nrows M) (el_t M) (el B)) S) S'.
Proof. exact (tr_dot_ok M B S alpha beta). Qed.
Print Assumptions c71_tr_dot.
Theorem c71_tr_dot_tr (M B S : mat Qc) alpha beta : mat_ok M -> mat_ok B -> mat_ok S ->
  nrows M = ncols B -> nrows S = ncols M -> ncols S = nrows B -> 0 < nrows M -> 0 < ncols M -> 0 < nrows B ->
  exists S', tr_dot_tr M B S alpha beta = Ok S' /\ becomes S (scaled alpha beta (product (nrows M) (el_t M) (el_t B)) S) S'.
Proof. exact (tr_dot_tr_ok M B S alpha beta). Qed.
Print Assumptions c71_tr_dot_tr.
(** Sizes that do not fit are errors. *)
Theorem c71_sizes (M B S : mat Qc) alpha beta :
  (~ (ncols M = nrows B /\ nrows S = nrows M /\ ncols S = ncols B) -> dot M B S alpha beta = Throw) /\
  (~ (ncols M = ncols B /\ nrows S = nrows M /\ ncols S = nrows B) -> dot_tr M B S alpha beta = Throw) /\
  (~ (nrows M = nrows B /\ nrows S = ncols M /\ ncols S = ncols B) -> tr_dot M B S alpha beta = Throw) /\
  (~ (nrows M = ncols B /\ nrows S = ncols M /\ ncols S = nrows B) -> tr_dot_tr M B S alpha beta = Throw).
Proof.
  unfold dot, dot_tr, tr_dot, tr_dot_tr. repeat split; intros H;
    (match goal with |- (if negb (?a =? ?b) then _ else if negb (?c =? ?d) || negb (?e =? ?f) then _ else _) = _ =>
       destruct (Z.eqb_spec a b); cbn [negb]; [|reflexivity]; destruct (Z.eqb_spec c d); cbn [negb orb]; [|reflexivity]; destruct (Z.eqb_spec e f); cbn [negb orb]; [|reflexivity] end);
    exfalso; apply H; repeat split; lia.
Qed.
Print Assumptions c71_sizes.
Theorem c71_vector_dot_vector (M B : mat Qc) : mat_ok M -> mat_ok B -> ncols M = 1 -> mlength B = mlength M ->
  vector_dot_vector M B = Ok (qsum (map (fun l => vel (data M) l * vel (data B) l)%Qc (upto (mlength M)))).
Proof. exact (vector_dot_vector_ok M B). Qed.
Print Assumptions c71_vector_dot_vector.
Theorem c71_dot_vector (M B S : mat Qc) alpha beta : mat_ok M -> mat_ok B -> mat_ok S ->
  ncols B = 1 -> ncols S = 1 -> ncols M = nrows B -> nrows S = nrows M -> 0 < nrows M ->
  exists S', dot_vector M B S alpha beta = Ok S' /\ becomes S (scaled alpha beta (product (ncols M) (el M) (el B)) S) S'.
Proof. exact (dot_vector_ok M B S alpha beta). Qed.
Print Assumptions c71_dot_vector.
Theorem c71_t_dot_vector (M B S : mat Qc) alpha beta : mat_ok M -> mat_ok B -> mat_ok S ->
  ncols B = 1 -> ncols S = 1 -> nrows M = nrows B -> nrows S = ncols M -> 0 < nrows M ->
  exists S', t_dot_vector M B S alpha beta = Ok S' /\ becomes S (scaled alpha beta (product (nrows M) (el_t M) (el B)) S) S'.
Proof. exact (t_dot_vector_ok M B S alpha beta). Qed.
Print Assumptions c71_t_dot_vector.
Theorem c71_dot_aat (M S : mat Qc) alpha beta lower : mat_ok M -> mat_ok S -> nrows S = nrows M -> ncols S = nrows M -> 0 < nrows M ->
  exists S', dot_aat M S lower alpha beta = Ok S' /\ becomes S (sym_result alpha beta S lower (product (ncols M) (el M) (el_t M))) S'.
Proof. exact (fun WM WS => dot_aat_ok M S alpha beta WM WS lower). Qed.
Print Assumptions c71_dot_aat.
Theorem c71_dot_ata (M S : mat Qc) alpha beta lower : mat_ok M -> mat_ok S -> nrows S = ncols M -> ncols S = ncols M -> 0 < nrows M -> 0 < ncols M ->
  exists S', dot_ata M S lower alpha beta = Ok S' /\ becomes S (sym_result alpha beta S lower (product (nrows M) (el_t M) (el M))) S'.
Proof. exact (fun WM WS => dot_ata_ok M S alpha beta WM WS lower). Qed.
Print Assumptions c71_dot_ata.
(** With the lower triangle set and beta = 0, the result is the full product and symmetric. *)
Theorem c71_dot_ata_symmetric (M S : mat Qc) alpha : mat_ok M -> mat_ok S -> nrows S = ncols M -> ncols S = ncols M -> 0 < nrows M -> 0 < ncols M ->
  exists S', dot_ata M S true alpha 0 = Ok S' /\ forall i j, inside S i j ->
    entry S' i j = Some (alpha * product (nrows M) (el_t M) (el M) i j)%Qc /\ entry S' i j = entry S' j i.
Proof.
  intros WM WS H1 H2 H3 H4. destruct (dot_ata_ok M S alpha 0 WM WS true H1 H2 H3 H4) as (S' & E & G). exists S'. split; auto.
  assert (P : forall i j, product (nrows M) (el_t M) (el M) i j = product (nrows M) (el_t M) (el M) j i).
  { intros i j. unfold product, el_t. f_equal. apply map_ext. intros l. apply Qcmult_comm. }
  assert (V : forall i j, inside S i j -> entry S' i j = Some (alpha * product (nrows M) (el_t M) (el M) i j)%Qc).
  { intros i j Hin. rewrite (bc_entry _ _ _ G i j Hin). unfold sym_result, scaled. destruct (i <=? j); f_equal; [|rewrite (P i j)]; ring. }
  intros i j Hin. split; [auto|]. rewrite !V; auto; [rewrite P; auto|]. destruct Hin. split; lia.
Qed.
Print Assumptions c71_dot_ata_symmetric.
Theorem c71_dot_ata_nan (M : mat (option Qc)) (S C : mat Qc) lower : mat_ok M -> mat_ok S -> mat_ok C ->
  nrows S = ncols M -> ncols S = ncols M -> nrows C = ncols M -> ncols C = ncols M ->
  exists S' C', dot_ata_nan M S C lower = Ok (S', C') /\
    becomes S (fun i j => Some (qsum (map (fun ab => fst ab * snd ab)%Qc (complete_pairs M i j)))) S' /\
    becomes C (fun i j => Some (qn (length (complete_pairs M i j)))) C'.
Proof. exact (dot_ata_nan_ok M S C lower). Qed.
Print Assumptions c71_dot_ata_nan.
Theorem c71_sym_dot (M B S : mat Qc) alpha beta upper : mat_ok M -> mat_ok B -> mat_ok S ->
  nrows M = ncols M -> ncols M = nrows B -> nrows S = nrows M -> ncols S = ncols B -> 0 < nrows M ->
  exists S', sym_dot M B S upper alpha beta = Ok S' /\ becomes S (scaled alpha beta (product (ncols M) (el_sym upper M) (el B)) S) S'.
Proof. exact (fun WM WB WS => sym_dot_ok M B S alpha beta WM WB WS upper). Qed.
Print Assumptions c71_sym_dot.
(** DotSym with a matrix that really is symmetric. *)
Theorem c71_dot_sym_partial (M B S : mat Qc) alpha beta upper : mat_ok M -> mat_ok B -> mat_ok S ->
  nrows B = ncols B -> ncols M = nrows B -> nrows S = nrows M -> ncols S = ncols B -> 0 < nrows M -> 0 < ncols M ->
  (forall i j, el B i j = el B j i) ->
  exists S', dot_sym M B S upper alpha beta = Ok S' /\ becomes S (scaled alpha beta (product (ncols M) (el M) (el B)) S) S'.
Proof.
  intros WM WB WS H1 H2 H3 H4 H5 H6 HS. destruct (dot_sym_ok M B S alpha beta WM WB WS upper H1 H2 H3 H4 H5 H6) as (S' & E & G). exists S'. split; auto.
  eapply becomes_ext; [exact G|]. intros i j _. unfold scaled, product. do 3 f_equal. f_equal. apply map_ext. intros l. f_equal. unfold el_sym. destruct (Bool.eqb _ _); auto.
Qed.
Print Assumptions c71_dot_sym_partial.
(** If only the upper triangle is given, as the argument says, DotSym reads the other one. *)
Theorem c71_dot_sym_refuted : exists M B S S', mat_ok M /\ mat_ok B /\ mat_ok S /\
  dot_sym M B S true 1 0 = Ok S' /\ el S' 0 0 <> product 2 (el M) (el_sym true B) 0 0.
Proof.
  exists (Mat 1 2 [qz 1; qz 1]), (Mat 2 2 [qz 1; qz 0; qz 2; qz 3]), (qzero 1 2). eexists. do 3 (split; [vm_compute; auto|]). split; [vm_compute; reflexivity|].
  vm_compute. discriminate.
Qed.
Print Assumptions c71_dot_sym_refuted.
Example c71_case : mat_ok q23 /\ (exists S', dot q2 q23 (qzero 2 3) 1 0 = Ok S' /\ map (el S' 1) [0; 1; 2] = map qz [19; 26; 33]) /\
  (exists S', dot_tr q23 q23 (qzero 2 2) (qz 2) 1 = Ok S' /\ el S' 0 1 = qz 64) /\
  (exists S', dot_ata q23 (qzero 3 3) true 1 0 = Ok S' /\ el S' 2 0 = qz 27).
Proof. split; [vm_compute; auto|]. split; [|split]; eexists; (split; [vm_compute; reflexivity|]); qeq. Qed.

(** ** C72 *)
Theorem c72_scalar (M S : mat Qc) f b : mat_ok M -> mat_ok S ->
  (nrows S = nrows M -> ncols S = ncols M ->
     exists S', ew_scalar f M b S = Ok S' /\ becomes S (fun i j => option_map (fun x => f x b) (entry M i j)) S') /\
  (~ (nrows S = nrows M /\ ncols S = ncols M) -> ew_scalar f M b S = Throw) /\
  (exists M', ew_scalar_in f M b = Ok M' /\ becomes M (fun i j => option_map (fun x => f x b) (entry M i j)) M').
Proof.
  intros WM WS. split; [exact (ew_scalar_ok M S WM WS f b)|]. split; [|exact (ew_scalar_in_ok M WM f b)].
  intros H. unfold ew_scalar. replace (same_size M S) with false by (unfold same_size; lia). reflexivity.
Qed.
Print Assumptions c72_scalar.
Theorem c72_matrices (M B S : mat Qc) f : mat_ok M -> mat_ok B -> mat_ok S ->
  (nrows S = nrows M -> ncols S = ncols M -> nrows B = nrows M -> ncols B = ncols M ->
     (exists S', ew f M B S = Ok S' /\ becomes S (fun i j => omap2 f (entry M i j) (entry B i j)) S') /\
     (exists M', ew_in f M B = Ok M' /\ becomes M (fun i j => omap2 f (entry M i j) (entry B i j)) M')) /\
  (~ (nrows B = nrows M /\ ncols B = ncols M) -> ew f M B S = Throw /\ ew_in f M B = Throw) /\
  (~ (nrows S = nrows M /\ ncols S = ncols M) -> ew f M B S = Throw).
Proof.
  intros WM WB WS. split; [|split].
  - intros R C RB CB. split; [exact (ew_ok M B S WM WB WS f R C RB CB) | exact (ew_in_ok M B WM WB f RB CB)].
  - intros H. unfold ew, ew_in. replace (same_size M B) with false by (unfold same_size; lia). cbn [negb]. split; auto. destruct (negb (same_size M S)); auto.
  - intros H. unfold ew. replace (same_size M S) with false by (unfold same_size; lia). reflexivity.
Qed.
Print Assumptions c72_matrices.
Theorem c72_multiply_beta (M B S : mat Qc) b beta : mat_ok M -> mat_ok B -> mat_ok S ->
  nrows S = nrows M -> ncols S = ncols M -> nrows B = nrows M -> ncols B = ncols M ->
  (exists S', multiply_scalar M b S beta = Ok S' /\ becomes S (fun i j => Some (el M i j * b + beta * el S i j)%Qc) S') /\
  (exists S', multiply M B S beta = Ok S' /\ becomes S (fun i j => Some (el M i j * el B i j + beta * el S i j)%Qc) S').
Proof.
  intros WM WB WS R C RB CB. split; [exact (multiply_scalar_ok M S WM WS b beta R C) | exact (multiply_ok M B S WM WB WS beta R C RB CB)].
Qed.
Print Assumptions c72_multiply_beta.
Example c72_case : (exists S', ew Qcminus q23 q23 (qzero 2 3) = Ok S' /\ el S' 1 2 = 0%Qc) /\
  (exists S', multiply_scalar q23 (qz 2) q23 (qz 10) = Ok S' /\ el S' 1 0 = qz 48).
Proof. split; eexists; (split; [vm_compute; reflexivity|]); qeq. Qed.
