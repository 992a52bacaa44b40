(** Model of the univariate distributions: /repo/src/ldt_statistics/distributions/distributions_uni.cpp.

    Simplifications: arithmetic on finite doubles is exact, zero has no sign; infinities and NaN follow IEEE; the constants of include/helpers.h:26-42 are the exact numbers; the functions
    of the C library and of boost (erfc, tgamma, lgamma, and helpers.h:81-117) are parameters, called only for finite arguments (other arguments as noted); the generalized lambda distribution
    and sampling are not part of this model. *)
From Coq Require Export Reals.
From Coq Require Import List ZArith Lra.
From Verif Require Export Base.
Local Open Scope R_scope.

(** ** Doubles *)
Inductive xr := Fin (x : R) | PInf | NInf | NaN.
Declare Scope xr_scope.
Delimit Scope xr_scope with x.
Bind Scope xr_scope with xr.
Definition xopp (a : xr) : xr := match a with Fin x => Fin (- x) | PInf => NInf | NInf => PInf | NaN => NaN end.
Definition xadd (a b : xr) : xr :=
  match a, b with
  | Fin x, Fin y => Fin (x + y) | NaN, _ | _, NaN => NaN | PInf, NInf | NInf, PInf => NaN
  | PInf, _ | _, PInf => PInf | NInf, _ | _, NInf => NInf
  end.
Definition xsub (a b : xr) : xr := xadd a (xopp b).
(** an infinity times a number of sign [x] *)
Definition xinf (x : R) : xr := if Rlt_dec 0 x then PInf else if Rlt_dec x 0 then NInf else NaN.
Definition xmul (a b : xr) : xr :=
  match a, b with
  | Fin x, Fin y => Fin (x * y) | NaN, _ | _, NaN => NaN
  | PInf, Fin x | Fin x, PInf => xinf x | NInf, Fin x | Fin x, NInf => xinf (- x)
  | PInf, PInf | NInf, NInf => PInf | _, _ => NInf
  end.
Definition xdiv (a b : xr) : xr :=
  match a, b with
  | Fin x, Fin y => if Req_EM_T y 0 then xinf x else Fin (x / y) | NaN, _ | _, NaN => NaN
  | Fin _, _ => Fin 0 | PInf, Fin x => if Rlt_dec x 0 then NInf else PInf | NInf, Fin x => if Rlt_dec x 0 then PInf else NInf | _, _ => NaN
  end.
Definition xexp (a : xr) : xr := match a with Fin x => Fin (exp x) | PInf => PInf | NInf => Fin 0 | NaN => NaN end.
Definition xlog (a : xr) : xr := match a with Fin x => if Rlt_dec 0 x then Fin (ln x) else if Rlt_dec x 0 then NaN else NInf | PInf => PInf | _ => NaN end.
Definition xsqrt (a : xr) : xr := match a with Fin x => if Rlt_dec x 0 then NaN else Fin (sqrt x) | PInf => PInf | _ => NaN end.
(** std::pow; a negative basis occurs only with the exponents 2, 3 and 4, for which the definitions below use products *)
Definition xpow (a b : xr) : xr :=
  match a, b with
  | Fin x, Fin y => if Rlt_dec 0 x then Fin (Rpower x y) else if Rlt_dec x 0 then NaN else if Rlt_dec 0 y then Fin 0 else if Rlt_dec y 0 then PInf else Fin 1
  | _, _ => NaN
  end.
Definition xfloor (a : xr) : xr := match a with Fin x => Fin (IZR (Int_part x)) | _ => a end.
Definition xceil (a : xr) : xr := xopp (xfloor (xopp a)).
Definition xlt (a b : xr) : bool :=
  match a, b with
  | Fin x, Fin y => if Rlt_dec x y then true else false | NInf, Fin _ | NInf, PInf | Fin _, PInf => true | _, _ => false
  end.
Definition xeq (a b : xr) : bool := match a, b with Fin x, Fin y => if Req_EM_T x y then true else false | PInf, PInf | NInf, NInf => true | _, _ => false end.
Definition xle (a b : xr) : bool := (xlt a b || xeq a b)%bool.
(** std::max, std::min *)
Definition xmax (a b : xr) : xr := if xlt a b then b else a.
Definition xmin (a b : xr) : xr := if xlt b a then b else a.
Infix "+" := xadd : xr_scope.
Infix "-" := xsub : xr_scope.
Infix "*" := xmul : xr_scope.
Infix "/" := xdiv : xr_scope.
Notation "- a" := (xopp a) : xr_scope.
Notation "# x" := (Fin x%R) (at level 0, x at level 0) : xr_scope.

(** ** Functions of other libraries: erfc, boost erf_inv, tgamma, lgamma, boost beta, ibeta, ibeta_inv, gamma_p, gamma_p_inv *)
Record special := Special { s_erfc : R -> R; s_erfinv : R -> R; s_tgamma : R -> R; s_lgamma : R -> R; s_beta : R -> R -> R; s_ibeta : R -> R -> R -> R; s_ibetainv : R -> R -> R -> R;
  s_gammap : R -> R -> R; s_gammapinv : R -> R -> R }.
Definition lift1 (f : R -> R) (a : xr) : xr := match a with Fin x => Fin (f x) | _ => NaN end.
Definition lift2 (f : R -> R -> R) (a b : xr) : xr := match a, b with Fin x, Fin y => Fin (f x y) | _, _ => NaN end.
Definition lift3 (f : R -> R -> R -> R) (a b c : xr) : xr := match a, b, c with Fin x, Fin y, Fin z => Fin (f x y z) | _, _, _ => NaN end.
(** erfc at the infinities *)
Definition xerfc (s : special) (a : xr) : xr := match a with Fin x => Fin (s_erfc s x) | PInf => Fin 0 | NInf => Fin 2 | NaN => NaN end.
(** helpers.h:113-117, arguments truncated to unsigned integers: exact binomial coefficient, for y <= x *)
Definition binomial_coefficient (x y : R) : R := C (Z.to_nat (Int_part x)) (Z.to_nat (Int_part y)).

(** ** The distributions *)
Inductive kind := KUniformCon | KNormal | KChi2 | KT | KExponential | KLogNormal | KF | KGamma | KBeta | KUniformDis | KBernoulli | KPoisson | KGeometric | KBinomial.
Record dist := Dist { d_kind : kind; p1 : R; p2 : R }.
(** distributions_uni.cpp:87-167 the constructor *)
Definition dist_new (k : kind) (a b : R) : res dist :=
  let bad := match k with
    | KNormal | KLogNormal => xlt (Fin b) #0
    | KT | KChi2 | KExponential => xle (Fin a) #0
    | KUniformCon | KUniformDis => xlt (Fin b) (Fin a)
    | KF | KGamma | KBeta => (xle (Fin a) #0 || xle (Fin b) #0)%bool
    | KPoisson => xlt (Fin a) #0
    | KGeometric | KBernoulli => (xlt (Fin a) #0 || xlt #1 (Fin a))%bool
    | KBinomial => (xlt (Fin a) #0 || xlt #1 (Fin a) || xlt (Fin b) #0)%bool
    end%x in
  if bad then Throw else Ok (Dist k a b).
(** distributions_uni.cpp:209-262 GetMinimum *)
Definition minimum (d : dist) : xr :=
  match d_kind d with KNormal | KT => NInf | KUniformCon | KUniformDis => Fin (p1 d) | _ => #0%x end.
(** distributions_uni.cpp:264-318 GetMaximum *)
Definition maximum (d : dist) : xr :=
  match d_kind d with
  | KUniformCon | KUniformDis | KBinomial => Fin (p2 d) | KBeta | KBernoulli => #1%x | _ => PInf
  end.
Local Open Scope xr_scope.
(** distributions_uni.cpp:320-386 GetMean *)
Definition mean (d : dist) : xr :=
  let a := Fin (p1 d) in let b := Fin (p2 d) in
  match d_kind d with
  | KNormal => a
  | KLogNormal => xexp (a + (b * b / #2))
  | KT => if xlt #1 a then #0 else NaN
  | KChi2 => a
  | KUniformCon | KUniformDis => (a + b) / #2
  | KExponential => #1 / a
  | KF => if xlt #2 b then b / (b - #2) else NaN
  | KGamma => a * b
  | KBeta => a / (a + b)
  | KPoisson | KBernoulli => a
  | KGeometric => (#1 - a) / a
  | KBinomial => a * b
  end.
(** distributions_uni.cpp:388-466 GetVariance *)
Definition variance (d : dist) : xr :=
  let a := Fin (p1 d) in let b := Fin (p2 d) in
  match d_kind d with
  | KNormal => b * b
  | KLogNormal => let s2 := b * b in (xexp s2 - #1) * xexp (a + a + s2)
  | KT => if xlt #2 a then a / (a - #2) else if xlt #1 a then PInf else NaN
  | KChi2 => #2 * a
  | KUniformCon => let n := b - a in (n * n) / #12
  | KExponential => #1 / (a * a)
  | KF => if xlt #4 b then (#2 * b * b * (a + b - #2)) / (a * (b - #2) * (b - #2) * (b - #4)) else NaN
  | KGamma => a * b * b
  | KBeta => (a * b) / ((a + b) * (a + b) * (a + b + #1))
  | KUniformDis => let n := b - a + #1 in (n * n - #1) / #12
  | KPoisson => a
  | KGeometric => (#1 - a) / (a * a)
  | KBernoulli => a * (#1 - a)
  | KBinomial => a * (#1 - a) * b
  end.
(** distributions_uni.cpp:468-476 GetSandardDeviation *)
Definition deviation (d : dist) : xr :=
  match d_kind d with KNormal => Fin (p2 d) | KLogNormal => #1 / Fin (p1 d) | _ => xsqrt (variance d) end.
(** distributions_uni.cpp:478-549 GetSkewness *)
Definition skewness (d : dist) : xr :=
  let a := Fin (p1 d) in let b := Fin (p2 d) in
  match d_kind d with
  | KNormal | KUniformCon | KUniformDis => #0
  | KLogNormal => let e := xexp (b * b) in (e + #2) * xsqrt (e - #1)
  | KT => if xlt #3 a then #0 else NaN
  | KChi2 => xsqrt (#8 / a)
  | KExponential => #2
  | KF => if xlt #6 b then (((#2 * a) + b - #2) * xsqrt (#8 * (b - #4))) / ((b - #6) * xsqrt (a * (a + b - #2))) else NaN
  | KGamma => #2 / xsqrt a
  | KBeta => #2 * (b - a) * xsqrt (a + b + #1) / ((a + b + #2) * xsqrt (a * b))
  | KPoisson => #1 / xsqrt a
  | KGeometric => (#2 - a) / xsqrt (#1 - a)
  | KBernoulli => (#1 - (#2 * a)) / xsqrt (a * (#1 - a))
  | KBinomial => (#1 - (#2 * a)) / xsqrt (b * a * (#1 - a))
  end.
(** distributions_uni.cpp:551-645 GetKurtosis; (Tv)-1.2 is the exact number *)
Definition kurtosis (d : dist) : xr :=
  let a := Fin (p1 d) in let b := Fin (p2 d) in
  match d_kind d with
  | KNormal => #0
  | KLogNormal => let s2 := b * b in xexp (#4 * s2) + #2 * xexp (#3 * s2) + #3 * xexp (#2 * s2) - #6
  | KT => if xlt #4 a then #6 / (a - #4) else if xlt #2 a then PInf else NaN
  | KChi2 => #12 / a
  | KUniformCon => #(- 12 / 10)
  | KExponential => #6
  | KF => if xlt #8 b then #12 * (a * (#5 * b - #22) * (a + b - #2) + (b - #4) * ((b - #2) * (b - #2))) / (a * (b - #6) * (b - #8) * (a + b - #2)) else NaN
  | KGamma => #6 / a
  | KBeta => let d := a * b * (a + b + #2) in #6 * ((a - b) * (a - b) * (a + b + #1) - d) / (d * (a + b + #3))
  | KUniformDis => let n := b - a + #1 in let nn := n * n in #(- 12 / 10) * (nn + #1) / (nn - #1)
  | KPoisson => #1 / a
  | KGeometric => #6 + (a * a) / (#1 - a)
  | KBernoulli => let pq := a * (#1 - a) in (#1 - #6 * pq) / pq
  | KBinomial => let pq := a * (#1 - a) in (#1 - #6 * pq) / (b * pq)
  end.
(** distributions_uni.cpp:647-715 GetMedian *)
Definition median (d : dist) : xr :=
  let a := Fin (p1 d) in let b := Fin (p2 d) in
  match d_kind d with
  | KNormal => a
  | KLogNormal => xexp a
  | KT => #0
  | KChi2 => let c := #1 - #2 / (#9 * a) in a * (c * c * c)
  | KUniformCon | KUniformDis => (a + b) / #2
  | KExponential => #(ln 2) / a
  | KF | KGamma | KBeta => NaN
  | KPoisson => xfloor (a + #1 / #3 - (#(2 / 100) / a))
  | KGeometric => if xeq a #0 then PInf else if xeq a #1 then #1 else xceil (- #(ln 2) / xlog (#1 - a)) - #1
  | KBernoulli => if xlt a #(1 / 2) then #0 else if xlt #(1 / 2) a then #1 else #(1 / 2)
  | KBinomial => xfloor (a * b)
  end.
(** distributions_uni.cpp:717-785 GetMode *)
Definition mode (d : dist) : xr :=
  let a := Fin (p1 d) in let b := Fin (p2 d) in
  match d_kind d with
  | KNormal => a
  | KLogNormal => xexp (a - (b * b))
  | KT | KExponential | KGeometric => #0
  | KChi2 => xmax #0 (a - #2)
  | KUniformCon => median d
  | KF => if xlt #2 a then ((a - #2) * b) / ((b + #2) * a) else NaN
  | KGamma => if xle #1 a then (a - #1) * b else NaN
  | KBeta => if (xeq a #1 && xeq b #1)%bool then #(1 / 2)
             else if (xle a #1 && xlt #0 b)%bool then #0
             else if (xlt #1 a && xle b #0)%bool then #1
             else if (xlt a #1 && xlt b #0)%bool then #1
             else (a - #1) / (a + b - #2)
  | KUniformDis => NaN
  | KPoisson => xfloor a
  | KBernoulli => if xlt a #(1 / 2) then #0 else if xlt #(1 / 2) a then #1 else #0
  | KBinomial => xfloor ((b + #1) * a)
  end.
(** distributions_uni.cpp:173-198 GetProperty *)
Inductive property := PMean | PVariance | PStandardError | PSkewness | PKurtosis | PMinimum | PMaximum | PMedian | PMode.
Definition get_property (d : dist) (p : property) : xr :=
  match p with
  | PMean => mean d | PVariance => variance d | PStandardError => deviation d | PSkewness => skewness d | PKurtosis => kurtosis d
  | PMinimum => minimum d | PMaximum => minimum d | PMedian => median d | PMode => mode d
  end.
(** distributions_uni.cpp:874-937 GetPdfOrPmf, for a number [x] *)
Definition sqrt_2pi : R := sqrt (2 * PI).
Definition density (s : special) (d : dist) (v : R) : xr :=
  let a := Fin (p1 d) in let b := Fin (p2 d) in let x := Fin v in
  if (xlt x (minimum d) || xlt (maximum d) x)%bool then #0 else
  match d_kind d with
  | KNormal => let n := (x - a) / b in xexp (#(- (1 / 2)) * n * n) / (#sqrt_2pi * b)
  | KLogNormal => let n := (xlog x - a) / b in xexp (#(- (1 / 2)) * n * n) / (x * #sqrt_2pi * b)
  | KT => let g := (a + #1) / #2 in lift1 (s_tgamma s) g * xpow (#1 + x * x / a) (- g) / (lift1 (s_tgamma s) (a / #2) * xsqrt (a * #PI))
  | KChi2 => let h := a / #2 in xexp (- x / #2) * xpow x (h - #1) / (xpow #2 h * lift1 (s_tgamma s) h)
  | KUniformCon => let n := b - a in #1 / n
  | KExponential => a * xexp (- a * x)
  | KF => xsqrt (xpow (a * x) a * xpow b b / xpow ((a * x) + b) (a + b)) / (x * lift2 (s_beta s) (a / #2) (b / #2))
  | KGamma => xpow b (- a) * xpow x (a - #1) * xexp (- x / b) / lift1 (s_tgamma s) a
  | KBeta => let c := lift1 (s_tgamma s) (a + b) / (lift1 (s_tgamma s) a * lift1 (s_tgamma s) b) in c * xpow x (a - #1) * xpow (#1 - x) (b - #1)
  | KUniformDis => if (xle a x && xle x b)%bool then #1 / (b - a + #1) else #0
  | KPoisson => xexp (- a + (x * xlog a) - lift1 (s_lgamma s) (x + #1))
  | KGeometric => xpow (#1 - a) x * a
  | KBernoulli => if xeq x #0 then #1 - a else if xeq x #1 then a else #0
  | KBinomial => if xlt b x then #0 else lift2 binomial_coefficient b x * xpow a x * xpow (#1 - a) (b - x)
  end.
(** distributions_uni.cpp:939-1033 GetPdfOrPmfLog, for a number [x] *)
Definition ln_sqrt_2pi : R := ln (sqrt (2 * PI)).
Definition log_density (s : special) (d : dist) (v : R) : xr :=
  let a := Fin (p1 d) in let b := Fin (p2 d) in let x := Fin v in
  if (xlt x (minimum d) || xlt (maximum d) x)%bool then NInf else
  match d_kind d with
  | KNormal => let n := (x - a) / b in (#(- (1 / 2)) * n * n) - xlog b - #ln_sqrt_2pi
  | KLogNormal => let n := (xlog x - a) / b in #(- (1 / 2)) * n * n - xlog (x * b) - #ln_sqrt_2pi
  | KT => let g := (a + #1) / #2 in lift1 (s_lgamma s) g - g * xlog (#1 + (x * x / a)) - lift1 (s_lgamma s) (a / #2) - #(1 / 2) * xlog (a * #PI)
  | KChi2 => let h := a / #2 in - x / #2 + (h - #1) * xlog x - h * xlog #2 - lift1 (s_lgamma s) h
  | KExponential => if xeq x #0 then NInf else xlog a - (a * x)
  | KGamma => (- a * xlog b) + ((a - #1) * xlog x) - (x / b) - lift1 (s_lgamma s) a
  | KBeta => let c := lift1 (s_lgamma s) (a + b) - lift1 (s_lgamma s) a - lift1 (s_lgamma s) b in c + (a - #1) * xlog x + (b - #1) * xlog (#1 - x)
  | KUniformDis => if (xle a x && xle x b)%bool then - xlog (b - a + #1) else NInf
  | KPoisson => - a + (x * xlog a) - lift1 (s_lgamma s) (x + #1)
  | KGeometric => x * xlog (#1 - a) + xlog a
  | KBernoulli => if xeq x #0 then xlog (#1 - a) else if xeq x #1 then xlog a else NInf
  | KBinomial => if xlt b x then NaN else xlog (lift2 binomial_coefficient b x) + (x * xlog a) + ((b - x) * xlog (#1 - a))
  | KUniformCon | KF => xlog (density s d v)
  end.
(** distributions_uni.cpp:1035-1089 GetCdf, [x] is not NaN *)
Definition cdf (s : special) (d : dist) (x : xr) : xr :=
  let a := Fin (p1 d) in let b := Fin (p2 d) in
  if xlt x (minimum d) then #0 else if xlt (maximum d) x then #1 else if xeq x PInf then #1 else if xeq x NInf then #0 else
  match d_kind d with
  | KNormal => #(1 / 2) * xerfc s ((a - x) / (b * #(sqrt 2)))
  | KLogNormal => #(1 / 2) * xerfc s ((a - xlog x) / (b * #(sqrt 2)))
  | KT => let t := #(1 / 2) * lift3 (s_ibeta s) (a / #2) #(1 / 2) (a / (x * x + a)) in if xle x #0 then t else #1 - t
  | KChi2 => lift2 (s_gammap s) (a / #2) (x / #2)
  | KUniformCon => let n := b - a in (x - a) / n
  | KExponential => #1 - xexp (- a * x)
  | KF => lift3 (s_ibeta s) (a / #2) (b / #2) (a * x / (a * x + b))
  | KGamma => lift2 (s_gammap s) a (x / b)
  | KBeta => lift3 (s_ibeta s) a b x
  | KUniformDis => xmin #1 ((xfloor x - a + #1) / (b - a + #1))
  | KPoisson => #1 - lift2 (s_gammap s) (x + #1) a
  | KGeometric => #1 - xpow (#1 - a) (x + #1)
  | KBernoulli => if xeq x #0 then #0 else if xeq x #1 then #1 else #1 - a
  | KBinomial => let d1 := #2 * (b - x) in let d2 := #2 * (x + #1) in let xx := ((#1 - a) / a) * ((x + #1) / (b - x)) in
                 lift3 (s_ibeta s) (d1 / #2) (d2 / #2) (d1 * xx / (d1 * xx + d2))
  end.
(** distributions_uni.cpp:1154-1171 the search for a quantile: [q] has the start, with [n] tries *)
Fixpoint decrease (F : xr -> xr) (p : xr) (n : nat) (q : xr) : xr :=
  match n with O => NaN | S n => let q := q - #1 in if xlt (F q) p then q + #1 else decrease F p n q end.
Fixpoint increase (F : xr -> xr) (p : xr) (n : nat) (q : xr) : xr :=
  match n with O => NaN | S n => let q := q + #1 in if xle p (F q) then q else increase F p n q end.
(** lines 1097-1102: the normal distribution with standard deviation [sd] *)
Definition normal_quantile (s : special) (m sd : xr) (p : R) : xr := m + sd * #(sqrt 2) * #(s_erfinv s (2 * p - 1)).
Definition xsign (a : xr) : xr := if xlt #0 a then #1 else if xlt a #0 then #(-1) else #0.
(** distributions_uni.cpp:1091-1189 GetQuantile, for a number [p]; tan, acos and cos are exact *)
Definition quantile (s : special) (d : dist) (v : R) : xr :=
  let a := Fin (p1 d) in let b := Fin (p2 d) in let p := Fin v in
  if xle p #0 then minimum d else if xle #1 p then maximum d else
  match d_kind d with
  | KNormal => normal_quantile s a b v
  | KLogNormal => xexp (normal_quantile s a b v)
  | KT =>
      if xeq p #(1 / 2) then #0
      else if xeq a #1 then #(tan (PI * (v - 1 / 2)))
      else if xeq a #2 then let c := #4 * p * (#1 - p) in (#2 * p - #1) * xsqrt (#2 / c)
      else if xeq a #4 then let c := #4 * p * (#1 - p) in let q := lift1 cos (#1 / #3 * lift1 acos (xsqrt c)) / xsqrt c in xsign (p - #(1 / 2)) * #2 * xsqrt (q - #1)
      else let x := lift3 (s_ibetainv s) (a / #2) #(1 / 2) (if xlt p #(1 / 2) then #2 * p else #2 * (#1 - p)) in
           let x := xsqrt (a * (#1 - x) / x) in if xlt p #(1 / 2) then - x else x
  | KChi2 => lift2 (s_gammapinv s) (a / #2) p * #2
  | KUniformCon => a + p * (b - a)
  | KExponential => - xlog (#1 - p) / a
  | KF => let x := lift3 (s_ibetainv s) (a / #2) (b / #2) p in b * x / (a * (#1 - x))
  | KGamma => lift2 (s_gammapinv s) a p * b
  | KBeta => lift3 (s_ibetainv s) a b p
  | KUniformDis => xfloor (a + p * (b - a))
  | KPoisson | KGeometric | KBernoulli | KBinomial =>
      let q := xmin (maximum d) (xmax (minimum d) (xfloor (normal_quantile s (mean d) (variance d) v))) in
      if xlt p (cdf s d q) then decrease (cdf s d) p 100 q else increase (cdf s d) p 100 q
  end.
