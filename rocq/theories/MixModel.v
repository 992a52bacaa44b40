(** Model of /repo/src/ldt_statistics/distributions/mixture.cpp: mixtures of univariate distributions. *)
From Coq Require Export List.
From Verif Require Export UdModel.
Export ListNotations.
Local Open Scope R_scope.

(** distributions.h DistributionBase: what a mixture uses of its distributions *)
Record comp := Comp { c_discrete : bool; c_min : xr; c_max : xr; c_mean : xr; c_var : xr; c_skew : xr; c_kurt : xr; c_cdf : xr -> xr; c_density : R -> xr }.
(** distributions_uni.cpp:1216-1228 IsDiscrete *)
Definition is_discrete (k : kind) : bool := match k with KUniformDis | KPoisson | KGeometric | KBernoulli | KBinomial => true | _ => false end.
Definition of_dist (s : special) (d : dist) : comp :=
  Comp (is_discrete (d_kind d)) (minimum d) (maximum d) (mean d) (variance d) (skewness d) (kurtosis d) (cdf s d) (density s d).
Definition is_nan (a : xr) : bool := match a with NaN => true | _ => false end.
(** std::pow with the exponents 2, 3, 4 *)
Definition xpown (a : xr) (n : nat) : xr := match n with 2 => a * a | 3 => a * a * a | 4 => a * a * (a * a) | _ => NaN end%x%nat.
(** running.h:83-101 PushNew and array.h:566-598 for RunningMoments<1, true, true>: the sum of the weights and the mean *)
Definition push (s : xr * xr) (x : xr) (w : R) : xr * xr :=
  if is_nan x then s else let t := (fst s + #w)%x in (t, ((fst s * snd s + #w * x) / t)%x).
(** running.h:39 GetMean *)
Definition get_mean (s : xr * xr) : xr := if xeq (fst s) #0%x then NaN else snd s.
(** the loop over the weights: [f] is the value that is pushed for a distribution *)
Definition weighted_mean (f : comp -> xr) (m : list (R * comp)) : xr := get_mean (fold_left (fun s wc => push s (f (snd wc)) (fst wc)) m (#0%x, #0%x)).
(** mixture.cpp:13-37 gettype *)
Inductive mix_type := MDiscrete | MContinuous | MBoth.
Definition get_type (cs : list comp) : mix_type :=
  if forallb c_discrete cs then MDiscrete else if forallb (fun c => negb (c_discrete c)) cs then MContinuous else MBoth.
(** mixture.cpp:39-55 the constructor. The members are pointers to the two lists. *)
Definition mixture := list (R * comp).
Definition mix_new (ws : list R) (cs : list comp) : res mixture :=
  if negb (Nat.eqb (length ws) (length cs)) then Throw
  else if existsb (fun w => xle #w #0)%x ws then Throw
  else match ws with [] => Throw | _ => Ok (combine ws cs) end.
(** mixture.cpp:56-76 GetMinimum, GetMaximum *)
Definition mix_minimum (m : mixture) : xr := fold_left (fun a wc => let v := c_min (snd wc) in if xlt v a then v else a) m PInf.
Definition mix_maximum (m : mixture) : xr := fold_left (fun a wc => let v := c_max (snd wc) in if xlt a v then v else a) m NInf.
Local Open Scope xr_scope.
(** mixture.cpp:207-239 GetMoments with mean and variance (also lines 98-115, 165-182) *)
Definition mix_mean (m : mixture) : xr := weighted_mean c_mean m.
Definition mix_variance (m : mixture) : xr := weighted_mean (fun c => xpown (c_mean c) 2 + c_var c) m - (mix_mean m * mix_mean m).
(** mixture.cpp:78-143 GetMoments: skewness and kurtosis (an infinite variance to the power 3/2 is NaN here, infinite in the code) *)
Definition mix_skewness (m : mixture) : xr :=
  weighted_mean (fun c => let diff := c_mean c - mix_mean m in xpown diff 3 + #3 * diff * c_var c + c_skew c * xpow (c_var c) #(3 / 2)) m / xpow (mix_variance m) #(3 / 2).
Definition mix_kurtosis (m : mixture) : xr :=
  weighted_mean (fun c => let diff := c_mean c - mix_mean m in
    xpown diff 4 + #6 * xpown diff 2 * c_var c + #4 * diff * c_skew c * xpow (c_var c) #(3 / 2) + (c_kurt c + #3) * xpown (c_var c) 2) m / xpown (mix_variance m) 2 - #3.
(** mixture.cpp:145-205 GetMomentsNormal: skewness and kurtosis (mean and variance as above) *)
Definition mix_skewness_normal (m : mixture) : xr :=
  weighted_mean (fun c => let diff := c_mean c - mix_mean m in (xpown diff 2 + #3 * c_var c) * diff) m / xpow (mix_variance m) #(3 / 2).
Definition mix_kurtosis_normal (m : mixture) : xr :=
  weighted_mean (fun c => let diff := c_mean c - mix_mean m in xpown diff 4 + #6 * xpown diff 2 * c_var c + #3 * xpown (c_var c) 2) m / xpown (mix_variance m) 2 - #3.
(** mixture.cpp:241-251 GetCdf *)
Definition mix_cdf (m : mixture) (x : xr) : xr := weighted_mean (fun c => c_cdf c x) m.
(** mixture.cpp:312-334 GetPdfOrPmf, GetPdfOrPmfLog *)
Definition mix_density (m : mixture) (x : R) : res xr :=
  match get_type (map snd m) with MBoth => Throw | _ => Ok (weighted_mean (fun c => c_density c x) m) end.
Definition mix_log_density (m : mixture) (x : R) : res xr := do v <- mix_density m x; Ok (xlog v).
(** fmin, fmax: NaN is ignored *)
Definition fmin (a b : xr) : xr := if is_nan a then b else if is_nan b then a else xmin a b.
Definition fmax (a b : xr) : xr := if is_nan a then b else if is_nan b then a else xmax a b.
(** the largest and the smallest positive normal double *)
Definition dbl_max : R := (2 - powerRZ 2 (-52)) * powerRZ 2 1023.
Definition dbl_min : R := powerRZ 2 (-1022).
(** static_cast<Ti> rounds towards zero; other values than numbers are UB (and numbers beyond the range of Ti, which is not bounded here) *)
Definition to_int (a : xr) : res Z := match a with Fin x => Ok (if Rlt_dec x 0 then (- Int_part (- x))%Z else Int_part x) | _ => UB end.
(** mixture.cpp:253-272 GetPmfSupportSize: the new values of min and max, and the size *)
Definition support_size (m : mixture) (lo hi : xr) : res (xr * xr * Z) :=
  let min0 := fold_left (fun a wc => fmin a (c_min (snd wc))) m #dbl_max in
  let max0 := fold_left (fun a wc => fmax a (c_max (snd wc))) m #dbl_min in
  let lo := fmax lo min0 in let hi := fmin hi max0 in
  do n <- to_int (hi - lo); Ok (lo, hi, (n + 1)%Z).
(** mixture.cpp:274-310 GetPmfSupport; [lo] is a number after the call of GetPmfSupportSize (UB otherwise, for the argument of the mass function) *)
Definition support_point (m : mixture) (log : bool) (x : xr) : res (xr * xr) :=
  match x with Fin v => do y <- (if log then mix_log_density m v else mix_density m v); Ok (x, y) | _ => UB end.
Fixpoint res_list {A} (l : list (res A)) : res (list A) := match l with [] => Ok [] | a :: r => do x <- a; do t <- res_list r; Ok (x :: t) end.
Definition support (m : mixture) (log : bool) (length : Z) (for_plot : bool) (lo hi : xr) : res (list (xr * xr)) :=
  if (length <=? 0)%Z then Throw else
  match get_type (map snd m) with
  | MDiscrete =>
      do s <- support_size m lo hi; let '(lo, _, _) := s in
      if for_plot then
        do l <- res_list (map (fun i => support_point m log (lo + #(INR i))) (seq 0 (Z.to_nat (length / 3))));
        Ok (concat (map (fun xy => [(fst xy, #0); xy; (fst xy, #0)]) l))
      else res_list (map (fun i => support_point m log (lo + #(INR i))) (seq 0 (Z.to_nat length)))
  | _ => Throw
  end.
(** mixture.cpp:349-351 std::partial_sum *)
Fixpoint partial_sums (l : list R) (a : R) : list R := match l with [] => [] | w :: r => (a + w)%R :: partial_sums r (a + w)%R end.
(** mixture.cpp:357-373 GetSample: the distribution that is sampled for the uniform number [un] *)
Fixpoint first_above (l : list R) (un : R) : nat := match l with [] => O | a :: r => if Rlt_dec un a then O else S (first_above r un) end.
Definition chosen (m : mixture) (un : R) : nat :=
  let j := first_above (partial_sums (map fst m) 0) un in if Nat.ltb j (length m) then j else (j - length m)%nat.
