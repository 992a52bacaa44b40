(** Specification of the generalized lambda distribution. *)
From Coq Require Import Reals.
From Coquelicot Require Import Coquelicot.
From Verif Require Export UdModel GldModel.
Local Open Scope R_scope.

(** (u^a - 1) / a, for a = 0 and a = infinity the limits; its derivative u^(a - 1) *)
Definition box_cox (a : xr) (u : R) : R := match a with Fin r => if Req_EM_T r 0 then ln u else (Rpower u r - 1) / r | _ => 0 end.
Definition box_cox' (a : xr) (u : R) : R := match a with Fin r => Rpower u (r - 1) | _ => 0 end.
(** a shape parameter: a number or plus infinity *)
Definition is_shape (a : xr) : Prop := a = PInf \/ exists r, a = Fin r.
(** The integral from 0 to 1, proper or not. *)
Definition integral01 (f : R -> R) (v : R) : Prop := is_RInt_gen (V := R_NormedModule) f (at_right 0) (at_left 1) v.
(** The contract for boost's beta function: the integral of Euler; it is symmetric. *)
Definition beta_ok (s : gspecial) : Prop :=
  (forall x y, -1 < x -> -1 < y -> integral01 (fun p => Rpower p x * Rpower (1 - p) y) (g_beta s (x + 1) (y + 1))) /\ (forall x y, g_beta s x y = g_beta s y x).
(** The quantile with shapes that are not 0, without location, scale and constants. *)
Definition core (a b p : R) : R := Rpower p a / a - Rpower (1 - p) b / b.
(** The contract for boost's digamma function and the constant of Euler: a derivative of the integral of Euler. *)
Definition digamma_ok (s : gspecial) : Prop :=
  forall x, -1 < x -> integral01 (fun p => ln p * Rpower (1 - p) x) (- (g_euler s + g_digamma s (x + 2)) / (x + 1)).
