(** Distribution functions from their derivatives. *)
From Coq Require Import Reals Lra Lia.
From Coquelicot Require Import Coquelicot.
From Verif Require Import UdSpec UdSpec2 UdProofs3.
Local Open Scope R_scope.

(** The points between two bounds, and the approach of a bound from inside. *)
Definition between (l u : Rbar) (x : R) : Prop := Rbar_lt l x /\ Rbar_lt x u.
Definition toward_low (l : Rbar) : (R -> Prop) -> Prop := match l with Finite x => at_right x | _ => Rbar_locally m_infty end.
Definition toward_high (u : Rbar) : (R -> Prop) -> Prop := match u with Finite x => at_left x | _ => Rbar_locally p_infty end.
#[export] Instance toward_low_proper l : ProperFilter (toward_low l).
Proof. destruct l; try apply Rbar_locally_filter. apply at_right_proper_filter. Qed.
#[export] Instance toward_high_proper u : ProperFilter (toward_high u).
Proof. destruct u; try apply Rbar_locally_filter. apply at_left_proper_filter. Qed.
Lemma ball_R (x y : R) (e : posreal) : ball x e y <-> Rabs (y - x) < e.
Proof. reflexivity. Qed.
Lemma ball_pos (x y r : R) (P : 0 < r) : ball x (mkposreal r P) y -> x - r < y < x + r.
Proof. intros H. pose proof (proj1 (ball_R _ _ _) H) as K. clear H. rename K into H. change (pos (mkposreal r P)) with r in H. apply Rabs_def2 in H. lra. Qed.
Lemma near_low l (x : R) : Rbar_lt l x -> l <> p_infty -> toward_low l (fun t => Rbar_lt l t /\ t < x).
Proof.
  destruct l as [l| |]; cbn; intros H N.
  - assert (P : 0 < x - l) by lra. exists (mkposreal (x - l) P). intros y Hy Hl. apply ball_pos in Hy. split; [exact Hl|lra].
  - congruence.
  - exists x. intros y Hy. split; auto.
Qed.
Lemma near_high u (x : R) : Rbar_lt x u -> u <> m_infty -> toward_high u (fun t => Rbar_lt t u /\ x < t).
Proof.
  destruct u as [u| |]; cbn; intros H N.
  - assert (P : 0 < u - x) by lra. exists (mkposreal (u - x) P). intros y Hy Hl. apply ball_pos in Hy. split; [exact Hl|lra].
  - exists x. intros y Hy. split; auto.
  - congruence.
Qed.
Section FromDerivative.
Variables (F f : R -> R) (l u : Rbar).
Hypothesis Lu : Rbar_lt l u.
Hypothesis D : forall x, between l u x -> is_derive F x (f x) /\ 0 <= f x.
Hypothesis Low : forall x : R, Rbar_le x l -> F x = 0.
Hypothesis High : forall x : R, Rbar_le u x -> F x = 1.
Hypothesis LimLow : filterlim F (toward_low l) (locally 0).
Hypothesis LimHigh : filterlim F (toward_high u) (locally 1).
Lemma lnp : l <> p_infty. Proof. intros ->. destruct u; exact Lu. Qed.
Lemma unm : u <> m_infty. Proof. intros ->. destruct l; exact Lu. Qed.
Lemma between_mid x y t : between l u x -> between l u y -> x <= t <= y -> between l u t.
Proof.
  intros [A _] [_ B] [H1 H2]. split; [apply (Rbar_lt_le_trans l x t); [exact A|exact H1]|apply (Rbar_le_lt_trans t y u); [exact H2|exact B]].
Qed.
Lemma mono_in x y : between l u x -> between l u y -> x <= y -> F x <= F y.
Proof.
  intros Hx Hy L. destruct (Req_dec x y) as [->|N]; [lra|]. destruct (MVT_gen F x y f) as (c & Hc & E).
  - intros t Ht. rewrite Rmin_left, Rmax_right in Ht by lra. apply D. apply (between_mid x y); auto. lra.
  - intros t Ht. rewrite Rmin_left, Rmax_right in Ht by lra. apply continuity_pt_filterlim. apply (ex_derive_continuous F). exists (f t). apply D. apply (between_mid x y); auto.
  - rewrite Rmin_left, Rmax_right in Hc by lra. destruct (D c) as [_ P]; [apply (between_mid x y); auto|]. nra.
Qed.
Lemma range_in x : between l u x -> 0 <= F x <= 1.
Proof.
  intros Hx. split.
  - assert (Q : Rbar_le 0 (F x)); [|exact Q]. apply (filterlim_le (F := toward_low l) F (fun _ => F x)); [|exact LimLow|apply filterlim_const].
    generalize (near_low l x (proj1 Hx) lnp). apply filter_imp. intros t [A B]. apply mono_in; [split; [exact A|]|exact Hx|lra]. apply (Rbar_lt_trans t x u); [exact B|apply Hx].
  - assert (Q : Rbar_le (F x) 1); [|exact Q]. apply (filterlim_le (F := toward_high u) (fun _ => F x) F); [|apply filterlim_const|exact LimHigh].
    generalize (near_high u x (proj2 Hx) unm). apply filter_imp. intros t [A B]. apply mono_in; [exact Hx|split; [|exact A]|lra]. apply (Rbar_lt_trans l x t); [apply Hx|exact B].
Qed.
Lemma place (x : R) : Rbar_le x l \/ between l u x \/ Rbar_le u x.
Proof.
  destruct (Rbar_lt_le_dec l x) as [A|A]; [|left; exact A]. destruct (Rbar_lt_le_dec x u) as [B|B]; [right; left; split; auto|right; right; exact B].
Qed.
Lemma range_all x : 0 <= F x <= 1.
Proof. destruct (place x) as [H|[H|H]]; [rewrite Low by exact H; lra|apply range_in; exact H|rewrite High by exact H; lra]. Qed.
Lemma mono_all x y : x <= y -> F x <= F y.
Proof.
  intros L. destruct (place x) as [H|[H|H]]; [rewrite (Low x) by exact H; apply range_all| |].
  - destruct (place y) as [K|[K|K]]; [|apply mono_in; auto|rewrite (High y) by exact K; apply range_all]. exfalso. assert (Q : Rbar_lt x x) by (apply (Rbar_le_lt_trans x l x); [apply (Rbar_le_trans x y l); [exact L|exact K]|apply H]). cbn in Q. lra.
  - rewrite (High x) by exact H. rewrite (High y); [lra|]. apply (Rbar_le_trans u x y); [exact H|exact L].
Qed.
Lemma open_between x : between l u x -> locally x (between l u).
Proof.
  intros [A B]. assert (P1 : locally x (fun t => Rbar_lt l t)).
  { destruct l as [l'| |]; cbn in A; [|contradiction|]; [exists (mkposreal (x - l') ltac:(lra)); intros y Hy; apply ball_pos in Hy; cbn; lra|exists (mkposreal 1 Rlt_0_1); cbn; trivial]. }
  assert (P2 : locally x (fun t => Rbar_lt t u)).
  { destruct u as [u'| |]; cbn in B; [|exists (mkposreal 1 Rlt_0_1); cbn; trivial|contradiction]. exists (mkposreal (u' - x) ltac:(lra)); intros y Hy; apply ball_pos in Hy; cbn; lra. }
  generalize (filter_and _ _ P1 P2). apply filter_imp. intros t Q. exact Q.
Qed.
Lemma two_sides (g : R -> R) x : filterlim g (at_left x) (locally (g x)) -> filterlim g (at_right x) (locally (g x)) -> continuous g x.
Proof.
  intros HL HR P HP. destruct (HL P HP) as [e1 E1]. destruct (HR P HP) as [e2 E2]. exists (mkposreal (Rmin e1 e2) ltac:(apply Rmin_pos; [apply e1|apply e2])). intros y Hy. assert (Hy' : Rabs (y - x) < Rmin e1 e2) by exact Hy.
  destruct (Rtotal_order y x) as [H|[->|H]]; [apply E1; [apply ball_R; pose proof (Rmin_l e1 e2); change (Rabs (y - x) < e1); lra|exact H]|apply locally_singleton in HP; exact HP|apply E2; [apply ball_R; pose proof (Rmin_r e1 e2); change (Rabs (y - x) < e2); lra|exact H]].
Qed.
Lemma const_left (g : R -> R) (c x w : R) : w < x -> (forall t, w < t < x -> g t = c) -> filterlim g (at_left x) (locally c).
Proof.
  intros Hw H. apply (filterlim_ext_loc (fun _ => c)); [|apply filterlim_const]. exists (mkposreal (x - w) ltac:(lra)). intros t Ht Hl. apply ball_pos in Ht. symmetry. apply H. lra.
Qed.
Lemma const_right (g : R -> R) (c x w : R) : x < w -> (forall t, x < t < w -> g t = c) -> filterlim g (at_right x) (locally c).
Proof.
  intros Hw H. apply (filterlim_ext_loc (fun _ => c)); [|apply filterlim_const]. exists (mkposreal (w - x) ltac:(lra)). intros t Ht Hl. apply ball_pos in Ht. symmetry. apply H. lra.
Qed.
Lemma continuous_all x : continuous F x.
Proof.
  pose proof lnp as NP. pose proof unm as UM. destruct (place x) as [H|[H|H]].
  - apply two_sides; [rewrite (Low x H); apply (const_left F 0 x (x - 1)); [lra|intros t Ht; apply Low; apply (Rbar_le_trans t x l); [cbn; lra|exact H]]|]. rewrite (Low x H).
    destruct l as [l'| |]; cbn in H; [|exfalso; apply NP; reflexivity|contradiction]. destruct (Req_dec x l') as [->|N]; [exact LimLow|]. apply (const_right F 0 x l'); [lra|]. intros t Ht. apply Low. cbn. lra.
  - apply (ex_derive_continuous F). exists (f x). apply D. exact H.
  - apply two_sides; [|rewrite (High x H); apply (const_right F 1 x (x + 1)); [lra|intros t Ht; apply High; apply (Rbar_le_trans u x t); [exact H|cbn; lra]]]. rewrite (High x H).
    destruct u as [u'| |]; cbn in H; [|contradiction|exfalso; apply UM; reflexivity]. destruct (Req_dec x u') as [->|N]; [exact LimHigh|]. apply (const_left F 1 x u'); [lra|]. intros t Ht. apply High. cbn. lra.
Qed.
Lemma from_derivative : distribution_function F.
Proof.
  pose proof lnp as NP. pose proof unm as UM. split; [exact mono_all|]. split; [exact continuous_all|]. split.
  - destruct l as [l'| |]; [|exfalso; apply NP; reflexivity|exact LimLow]. apply (is_lim_ext_loc (fun _ => 0)); [|apply is_lim_const]. exists l'. intros t Ht. symmetry. apply Low. cbn. lra.
  - destruct u as [u'| |]; [|exact LimHigh|exfalso; apply UM; reflexivity]. apply (is_lim_ext_loc (fun _ => 1)); [|apply is_lim_const]. exists u'. intros t Ht. symmetry. apply High. cbn. lra.
Qed.
End FromDerivative.
(** A continuous function has the derivative at a point to which its derivatives around the point converge. *)
Lemma derive_at (F f : R -> R) (x : R) : (forall t, continuous F t) -> (forall t, t <> x -> is_derive F t (f t)) -> continuous f x -> is_derive F x (f x).
Proof.
  intros C0 D C1. apply is_derive_Reals. intros e He. destruct (C1 (fun y => Rabs (y - f x) < e)) as [d Hd]; [exists (mkposreal e He); intros y Hy; exact Hy|]. exists d. intros h Hh Hd'.
  destruct (MVT_gen F x (x + h) f) as (c & Hc & E).
  - intros t Ht. apply D. unfold Rmin, Rmax in Ht. destruct (Rle_dec x (x + h)); lra.
  - intros t Ht. apply continuity_pt_filterlim. apply C0.
  - replace ((F (x + h) - F x) / h - f x) with (f c - f x) by (rewrite E; field; exact Hh). apply Hd. apply ball_R. unfold Rmin, Rmax in Hc. apply Rabs_def2 in Hd'. apply Rabs_def1; destruct (Rle_dec x (x + h)); lra.
Qed.
