From Verif Require Import NamesSpec NamesModel StrProofs.
From Coq Require Import Lia.
Local Open Scope list_scope.

Lemma exactly {T} (parse : str -> res T) (P : T -> str -> Prop) : (forall s t, parse s = Ok t -> P t s) -> (forall s t, P t s -> parse s = Ok t) -> (forall s, parse s <> UB) -> accepts_exactly parse P.
Proof.
  intros H1 H2 H3. split; [intros s t; split; auto|]. intros s. split.
  - intros E t H. apply H2 in H. congruence.
  - intros H. destruct (parse s) as [t| |] eqn:E; auto; [exfalso; apply (H t); auto|exfalso; apply (H3 s); auto].
Qed.
Lemma begins_one_1 p s : starts_with (s_ p) s = true -> begins_one [p] s.
Proof. intros H. apply starts_with_app in H. exists p. split; [left; auto|auto]. Qed.
Lemma begins_one_in p ps s : In p ps -> starts_with (s_ p) s = true -> begins_one ps s.
Proof. intros I H. apply starts_with_app in H. exists p. auto. Qed.
Lemma is_one_in p ps s : In p ps -> iequals (s_ p) s = true -> is_one ps s.
Proof. intros I H. unfold iequals in H. apply str_eqb_eq in H. exists p. auto. Qed.

Ltac chain_cases :=
  repeat match goal with
  | H : (if ?b then _ else _) = Ok _ |- _ => destruct b eqn:?
  | H : Ok _ = Ok _ |- _ => injection H as <-
  | H : Throw = Ok _ |- _ => discriminate
  end.
Ltac ubs := let s := fresh in intros s; repeat match goal with |- (if ?b then _ else _) <> _ => destruct b end; discriminate.
Ltac in_list := cbn; tauto.
Ltac prefix_back := let p := fresh in let I := fresh in let r := fresh in intros (p & I & r & ->); cbn in I; repeat (destruct I as [<- |I]); try contradiction; reflexivity.

Lemma gof_ok : accepts_exactly gof_parse (fun t => begins_one (gof_prefixes t)).
Proof. apply exactly; [intros s t; unfold gof_parse; intros H; chain_cases; eapply begins_one_in; eauto; in_list|intros s []; prefix_back|unfold gof_parse; ubs]. Qed.
Lemma distance_ok : accepts_exactly distance_parse (fun t => begins_one (distance_prefixes t)).
Proof. apply exactly; [intros s t; unfold distance_parse; intros H; chain_cases; eapply begins_one_in; eauto; in_list|intros s []; prefix_back|unfold distance_parse; ubs]. Qed.
Lemma correlation_ok : accepts_exactly correlation_parse (fun t => begins_one (correlation_prefixes t)).
Proof. apply exactly; [intros s t; unfold correlation_parse; intros H; chain_cases; eapply begins_one_in; eauto; in_list|intros s []; prefix_back|unfold correlation_parse; ubs]. Qed.
Lemma dist_ok : accepts_exactly dist_parse (fun t => begins_one (dist_prefixes t)).
Proof. apply exactly; [intros s t; unfold dist_parse; intros H; chain_cases; eapply begins_one_in; eauto; in_list|intros s []; prefix_back|unfold dist_parse; ubs]. Qed.
Lemma model_ok : accepts_exactly model_parse (fun t => begins_one (model_prefixes t)).
Proof. apply exactly; [intros s t; unfold model_parse; intros H; chain_cases; eapply begins_one_in; eauto; in_list|intros s []; prefix_back|unfold model_parse; ubs]. Qed.
Lemma function_ok : accepts_exactly function_parse (fun t s => s = s_ (function_code t)).
Proof.
  apply exactly.
  - intros s t. unfold function_parse. intros H; chain_cases; match goal with H : str_eqb _ _ = true |- _ => apply str_eqb_eq in H; exact H end.
  - intros s []; intros ->; reflexivity.
  - unfold function_parse; ubs.
Qed.
(** A word in other letters has none of the prefixes. *)
Lemma upper_of a b : same_letters a b -> forall p, starts_with p b = true -> starts_with (map upper p) (map upper a) = true.
Proof. unfold same_letters. intros -> p H. apply starts_with_app in H as (r & ->). rewrite map_app. apply starts_with_app. eauto. Qed.
Lemma no_prefix w s p : same_letters (s_ w) s -> starts_with (map upper (s_ p)) (map upper (s_ w)) = false -> starts_with (s_ p) s = false.
Proof. intros S H. destruct (starts_with (s_ p) s) eqn:E; auto. rewrite (upper_of (s_ w) s) in H by auto. discriminate. Qed.
Lemma word_yes w s : same_letters (s_ w) s -> iequals (s_ w) s = true.
Proof. intros S. unfold iequals. apply str_eqb_eq. auto. Qed.
Lemma word_no w v s : same_letters (s_ w) s -> str_eqb (map upper (s_ v)) (map upper (s_ w)) = false -> iequals (s_ v) s = false.
Proof. unfold same_letters. intros S H. unfold iequals. rewrite <- S. auto. Qed.
Ltac word_back S := rewrite ?(word_yes _ _ S);
  repeat match goal with
  | |- context [starts_with (s_ ?p) _] => rewrite (no_prefix _ _ p S eq_refl)
  | |- context [iequals (s_ ?v) _] => rewrite (word_no _ v _ S eq_refl)
  end; reflexivity.
Lemma linkage_ok : accepts_exactly linkage_parse (fun t s => begins_one (linkage_prefixes t) s \/ is_one (linkage_words t) s).
Proof.
  apply exactly.
  - intros s t. unfold linkage_parse. intros H; chain_cases; repeat match goal with H : (_ || _)%bool = true |- _ => apply Bool.orb_true_iff in H as [H|H] end;
      first [left; eapply begins_one_in; [|eassumption]; in_list | right; eapply is_one_in; [|eassumption]; in_list].
  - intros s t [H|(w & I & S)]; [revert H; destruct t; prefix_back|]. unfold linkage_parse. destruct t; cbn in I; try contradiction; destruct I as [<- |[]]; word_back S.
  - unfold linkage_parse; ubs.
Qed.
Lemma class_ok : accepts_exactly class_parse (fun t s => begins_one (class_prefixes t) s \/ is_one (class_words t) s).
Proof.
  apply exactly.
  - intros s t. unfold class_parse. intros H; chain_cases; repeat match goal with H : (_ || _)%bool = true |- _ => apply Bool.orb_true_iff in H as [H|H] end;
      first [left; eapply begins_one_in; [|eassumption]; in_list | right; eapply is_one_in; [|eassumption]; in_list].
  - intros s t [H|(w & I & S)]; [revert H; destruct t; prefix_back|]. unfold class_parse. destruct t; cbn in I; try contradiction; destruct I as [<- |[]]; word_back S.
  - unfold class_parse; ubs.
Qed.
Lemma ends_with_app p s : ends_with p s = true <-> ends p s.
Proof.
  unfold ends_with. rewrite starts_with_app. split.
  - intros (r & H). exists (rev r). rewrite <- (rev_involutive s), H, rev_app_distr, rev_involutive. auto.
  - intros (r & ->). exists (rev r). apply rev_app_distr.
Qed.
Lemma descriptive_ok : accepts_exactly descriptive_parse (fun t s => begins_one (descriptive_prefixes t) s /\ descriptive_pop t (ends (s_ "pop") s)).
Proof.
  apply exactly.
  - intros s t. unfold descriptive_parse. intros H; chain_cases; repeat match goal with H : (_ || _)%bool = true |- _ => apply Bool.orb_true_iff in H as [H|H] end;
      match goal with H : starts_with _ s = true |- _ => pose proof (fun ps I => begins_one_in _ ps s I H) as B end;
      try (split; [apply B; in_list|exact I]);
      (change ["p"; "o"; "p"]%char with (s_ "pop"); destruct (ends_with (s_ "pop") s) eqn:E; (split; [apply B; in_list|]); cbn [descriptive_pop]; rewrite <- ends_with_app, E; [reflexivity|discriminate]).
  - intros s t (H & P). revert H. assert (EP := ends_with_app (s_ "pop") s). destruct t; cbn [descriptive_pop] in P; try prefix_back;
      (intros (p & I & r & ->); cbn in I; destruct I as [<- |[]]; unfold descriptive_parse;
       first [apply EP in P; rewrite P; reflexivity | destruct (ends_with (s_ "pop") _) eqn:E; [exfalso; apply P, EP; auto|reflexivity]]).
  - unfold descriptive_parse; ubs.
Qed.
Lemma scoring_back s t : t <> SRmspe -> begins_one (scoring_prefixes t) s -> scoring_parse s = Ok t.
Proof. intros N. destruct t; try congruence; prefix_back. Qed.
Lemma scoring_fwd s t : scoring_parse s = Ok t -> t <> SRmspe /\ begins_one (scoring_prefixes t) s.
Proof.
  unfold scoring_parse. intros H; chain_cases; try (split; [discriminate|]; eapply begins_one_in; [|eassumption]; in_list).
  exfalso. match goal with H1 : starts_with (s_ "rmsp") s = true, H2 : starts_with (s_ "rms") s = false |- _ => apply starts_with_app in H1 as (r & ->); discriminate end.
Qed.
