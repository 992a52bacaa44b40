(** Model of RunningMoments (/repo/include/math/statistics/running.h) and of the single-pass
    updates of /repo/include/array.h. *)
From Verif Require Import Num.
Local Open Scope Qc_scope.

(** A double that may be NaN: [None].  Division by zero gives [None]; in the code below a zero
    divisor only occurs with a zero numerator when weights are not negative (0/0 = NaN). *)
Definition fl := option Qc.
Definition fl2 (f : Qc -> Qc -> Qc) (a b : fl) : fl :=
  match a, b with Some x, Some y => Some (f x y) | _, _ => None end.
Definition fadd := fl2 Qcplus.
Definition fsub := fl2 Qcminus.
Definition fmul := fl2 Qcmult.
Definition fdiv (a b : fl) : fl :=
  match a, b with
  | Some x, Some y => if qeqb y 0 then None else Some (x / y)
  | _, _ => None
  end.
Definition fneg (a : fl) : fl := match a with Some x => Some (- x) | None => None end.
Infix "+f" := fadd (at level 50, left associativity).
Infix "-f" := fsub (at level 50, left associativity).
Infix "*f" := fmul (at level 40, left associativity).
Infix "/f" := fdiv (at level 40, left associativity).

(** running.h:11-22: the fields (w is unused). *)
Record moms := { cnt : Z; sw : fl; mean : fl; m2 : fl; m3 : fl; m4 : fl }.

(** running.h:12-35: initial values and Reset. *)
Definition moms0 : moms := {| cnt := 0; sw := Some 0; mean := Some 0; m2 := Some 0; m3 := Some 0; m4 := Some 0 |}.

Definition c3 : fl := Some (qz 3).
Definition c4 : fl := Some (qz 4).
Definition c6 : fl := Some (qz 6).

(** array.h:562-594 [update_single_pass<isWeighted, moments>]; [mo] is the template argument
    [moments], [x] the observation, [w] the weight (already 1 when not weighted). The count is
    maintained by the caller. *)
Definition single_pass (mo : nat) (x w : fl) (s : moms) : moms :=
  let sumW := sw s in
  let delta := x -f mean s in
  let delta2 := delta *f delta in
  let temp := sumW +f w in
  let mean' := (sumW *f mean s +f w *f x) /f temp in
  let m4' := if (mo =? 4)%nat then
      m4 s +f (delta2 *f delta2 *f sumW *f w *f (sumW *f sumW -f sumW *f w +f w *f w) /f (temp *f temp *f temp)
      +f c6 *f delta2 *f (w *f w *f m2 s) /f (temp *f temp)
      +f c4 *f delta *f (fneg w *f m3 s) /f temp)
    else m4 s in
  let m3' := if (3 <=? mo)%nat then
      m3 s +f (delta *f delta2 *f sumW *f w *f (sumW -f w) /f (temp *f temp)
      +f c3 *f delta *f (fneg w *f m2 s) /f temp)
    else m3 s in
  let m2' := if (2 <=? mo)%nat then m2 s +f (delta2 *f sumW *f w /f temp) else m2 s in
  {| cnt := cnt s; sw := temp; mean := mean'; m2 := m2'; m3 := m3'; m4 := m4' |}.

(** array.h:522-560 [update_single_pass_combine]; [a] plays the role of the arguments ..._1 and
    [b] of ..._2; the outputs that are not computed keep their initial 0 (running.h:115, 189). *)
Definition combine_pass (mo : nat) (a b : moms) : moms :=
  let temp := sw a +f sw b in
  let delta := mean b -f mean a in
  let delta2 := delta *f delta in
  let mean' := (sw a *f mean a +f sw b *f mean b) /f temp in
  let m4' := if (mo =? 4)%nat then
      m4 a +f m4 b
      +f delta2 *f delta2 *f sw a *f sw b *f (sw a *f sw a -f sw a *f sw b +f sw b *f sw b) /f (temp *f temp *f temp)
      +f c6 *f delta2 *f (sw a *f sw a *f m2 b +f sw b *f sw b *f m2 a) /f (temp *f temp)
      +f c4 *f delta *f (sw a *f m3 b -f sw b *f m3 a) /f temp
    else Some 0 in
  let m3' := if (3 <=? mo)%nat then
      m3 a +f m3 b +f delta *f delta2 *f sw a *f sw b *f (sw a -f sw b) /f (temp *f temp)
      +f c3 *f delta *f (sw a *f m2 b -f sw b *f m2 a) /f temp
    else Some 0 in
  let m2' := if (2 <=? mo)%nat then m2 a +f m2 b +f delta2 *f sw a *f sw b /f temp else Some 0 in
  {| cnt := 0; sw := temp; mean := mean'; m2 := m2'; m3 := m3'; m4 := m4' |}.

(** running.h:98-113 / 120-135: any of the maintained moments is NaN. *)
Definition has_nan (mo : nat) (s : moms) : bool :=
  match mean s with None => true | _ => false end
  || ((2 <=? mo)%nat && match m2 s with None => true | _ => false end)
  || ((3 <=? mo)%nat && match m3 s with None => true | _ => false end)
  || ((mo =? 4)%nat && match m4 s with None => true | _ => false end).

(** running.h:77-92 [PushNew] with skipNAN = true (the only instantiations in the library). *)
Definition push_new (mo : nat) (weighted : bool) (s : moms) (v : fl) (w : Qc) : moms :=
  match v with
  | None => s
  | Some _ =>
      let s' := single_pass mo v (Some (if weighted then w else 1)) s in
      {| cnt := cnt s + 1; sw := sw s'; mean := mean s'; m2 := m2 s'; m3 := m3 s'; m4 := m4 s' |}
  end.

(** running.h:96-143 [Combine(other)]; [this] is the second argument. *)
Definition combine_moms (mo : nat) (this_ other : moms) : moms :=
  if has_nan mo other then this_
  else
    let r := combine_pass mo other this_ in
    if has_nan mo r then this_
    else {| cnt := cnt this_ + cnt other; sw := sw r; mean := mean r; m2 := m2 r; m3 := m3 r; m4 := m4 r |}.

(** running.h:39, 44-50. *)
Definition get_mean (s : moms) : fl :=
  match sw s with Some w => if qeqb w 0 then None else mean s | None => mean s end.
Definition get_variance (mo : nat) (s : moms) : fl :=
  if (2 <=? mo)%nat then
    match sw s with Some w => if qeqb w 0 then None else m2 s /f sw s | None => m2 s /f sw s end
  else None.

(** running.h:154-218 [Combine(mean, var, skew = 0, kurt = 0, weight, count)], the only use in the
    library (summary.cpp:180).  With skew = 0 the [pow]/[sqrt] factors vanish: m3 = 0 for
    weight > 0; weight = 0 makes m3 and m4 NaN (0/0) and the call returns. *)
Definition combine_normal (mo : nat) (s : moms) (mu var : fl) (w : Qc) (count : Z) : moms :=
  let b := {| cnt := count; sw := Some w; mean := mu;
              m2 := var *f Some w;
              m3 := if qeqb w 0 then None else match var with Some _ => Some 0 | None => None end;
              m4 := c3 *f (var *f Some w *f (var *f Some w)) /f Some w |} in
  combine_moms mo s b.

(** array.h:613-671 [Moments<isWeighted, skipNAN = true, mo>]: the pass over the data. *)
Definition array_pass (mo : nat) (weighted : bool) (data : list fl) (w : list Qc) : moms :=
  fold_left (fun s p => push_new mo weighted s (fst p) (snd p)) (combine data w) moms0.

(** array.h:652-671 as used by [Mean] (681-686): variance, skewness and kurtosis are null pointers,
    so the branch [sumW == 0] dereferences null. *)
Definition array_mean (weighted : bool) (data : list fl) (w : list Qc) : res fl :=
  let s := array_pass 1 weighted data w in
  match sw s with
  | Some x => if qeqb x 0 then UB else Ok (mean s)
  | None => Ok (mean s)
  end.

(** array.h:696-701 [Variance]: skewness and kurtosis are null pointers. *)
Definition array_variance (weighted : bool) (data : list fl) (w : list Qc) : res fl :=
  let s := array_pass 2 weighted data w in
  match sw s with
  | Some x => if qeqb x 0 then UB else Ok (m2 s /f sw s)
  | None => Ok (m2 s /f sw s)
  end.
