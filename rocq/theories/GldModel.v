(** Model of /repo/src/ldt_statistics/distributions/distribution_gld.cpp (the generalized lambda distribution FKML).

    Simplifications: arithmetic on finite doubles is exact (as in UdModel), infinite shape parameters are kept; in the moments, divisions by zero are those of the real numbers of
    the prover (the theorems only use divisors that are not zero); std::pow with the exponents 2 to 7 is the product; the functions of boost and the constants are parameters;
    DBL_EPSILON is a parameter; the optimizer of GetFromMoments is a parameter. *)
From Coq Require Export Reals List ZArith.
From Verif Require Export Base UdModel.
Local Open Scope R_scope.

Definition xisinf (a : xr) : bool := match a with PInf | NInf => true | _ => false end.
(** std::pow with an exponent that may be infinite *)
Definition gpow (a b : xr) : xr :=
  match a, b with
  | Fin x, PInf => if Req_EM_T (Rabs x) 1 then Fin 1 else if Rlt_dec (Rabs x) 1 then Fin 0 else PInf
  | Fin x, NInf => if Req_EM_T (Rabs x) 1 then Fin 1 else if Rlt_dec (Rabs x) 1 then PInf else Fin 0
  | _, _ => xpow a b
  end.
(** distribution_gld.cpp:12-21 the constructor *)
Definition gld_new (d1 d2 d3 d4 : xr) : res (xr * xr * xr * xr) := if xle d2 #0 then Throw else Ok (d1, d2, d3, d4).
(** distribution_gld.cpp:23-51 GetQuantile *)
Definition gld_quantile (p d1 d2 d3 d4 : xr) : xr :=
  (if xeq d3 #0 then
     if xeq d4 #0 then d1 + (#1 / d2) * xlog (p / (#1 - p))
     else if xisinf d4 then d1 + (#1 / d2) * xlog p
     else d1 + (#1 / d2) * (xlog p - (gpow (#1 - p) d4 - #1) / d4)
   else if xeq d4 #0 then
     if xisinf d3 then d1 - (#1 / d2) * xlog (#1 - p)
     else d1 + (#1 / d2) * ((gpow p d3 - #1) / d3 - xlog (#1 - p))
   else if xisinf d3 then d1 - (#1 / d2) * ((gpow (#1 - p) d4 - #1) / d4)
   else if xisinf d4 then d1 + (#1 / d2) * ((gpow p d3 - #1) / d3)
   else d1 + (#1 / d2) * ((gpow p d3 - #1) / d3 - (gpow (#1 - p) d4 - #1) / d4))%x.
(** distribution_gld.cpp:53-77 GetDensityQuantile *)
Definition gld_density_quantile (p d1 d2 d3 d4 : xr) : xr :=
  (if xeq d3 #0 then
     if xeq d4 #0 then d2 * p - d2 * p * p
     else if xisinf d4 then d2 * p
     else d2 / (gpow (#1 - p) (d4 - #1) + #1 / p)
   else if xeq d4 #0 then
     if xisinf d3 then d2 * (#1 - p)
     else d2 / (gpow p (d3 - #1) + #1 / (#1 - p))
   else if xisinf d3 then d2 / gpow (#1 - p) (d4 - #1)
   else if xisinf d4 then d2 / gpow p (d3 - #1)
   else d2 / (gpow p (d3 - #1) + gpow (#1 - p) (d4 - #1)))%x.

(** ** Moments *)
(** boost beta, digamma and polygamma; the constants of Euler and Apery *)
Record gspecial := GSpecial { g_beta : R -> R -> R; g_digamma : R -> R; g_polygamma : nat -> R -> R; g_euler : R; g_zeta3 : R }.
Section Moments.
Context (s : gspecial).
(** distribution_gld.cpp:81-86 vk_M2_zero *)
Definition vk_M2_zero (L : R) : R :=
  (2 * (2 * L ^ 3 + L ^ 2 - L - 1)) / (L * (L + 1) * (2 * L + 1)) + (2 * (g_euler s + g_digamma s (L + 2))) / (L * (L + 1)).
(** distribution_gld.cpp:88-103 vk_M3_zero *)
Definition vk_M3_zero (L sign : R) : R :=
  let C := g_euler s in let L2 := L * L in let L2_1 := L2 * (L + 1) in let diG2 := g_digamma s (L + 2) in
  (3 * sign * (12 * L ^ 5 + 10 * L2 * L2 - 4 * L ^ 3 - L2 + 4 * L + 1)) / (L2_1 * (2 * L + 1) * (3 * L + 1)) - (6 * sign * (C + diG2)) / L2_1
  + (3 * sign * (C + g_digamma s (2 * L + 2))) / (L2 * (2 * L + 1)) + (3 * sign * (PI ^ 2 / 6 + (C + diG2) ^ 2 - g_polygamma s 1 (L + 2))) / (L * (L + 1)).
(** distribution_gld.cpp:105-130 vk_M4_zero *)
Definition vk_M4_zero (L : R) : R :=
  let C := g_euler s in let L2 := L * L in let L3 := L2 * L in let pi2_6 := PI ^ 2 / 6 in let c1 := C + g_digamma s (L + 2) in let c2 := C + g_digamma s (2 * L + 2) in
  let psi := g_polygamma s 1 (L + 2) in
  (4 * (144 * L ^ 7 + 156 * L ^ 6 - 18 * L ^ 5 - 24 * L2 ^ 2 + 7 * L3 - 11 * L2 - 7 * L - 1)) / (L3 * (L + 1) * (2 * L + 1) * (3 * L + 1) * (4 * L + 1))
  + (12 * c1) / (L3 * (L + 1)) - (12 * c2) / (L3 * (2 * L + 1)) + (4 * (C + g_digamma s (3 * L + 2))) / (L3 * (3 * L + 1))
  - (12 * (pi2_6 + c1 ^ 2 - psi)) / (L2 * (L + 1)) + (6 * (pi2_6 + c2 ^ 2 - g_polygamma s 1 (2 * L + 2))) / (L2 * (2 * L + 1))
  + (4 * (3 * (pi2_6 - psi) * c1 + c1 ^ 3 + 2 * g_zeta3 s + g_polygamma s 2 (L + 2))) / (L * (L + 1)).
Definition is0 (x : R) : bool := if Req_EM_T x 0 then true else false.
(** distribution_gld.cpp:132-187 GetMk *)
Definition get_mk (k : Z) (a b : R) : res R :=
  match k with
  | 1%Z => Ok (if Req_EM_T a b then 0 else if (is0 a && negb (is0 b))%bool then - b / (b + 1) else if (negb (is0 a) && is0 b)%bool then a / (a + 1)
               else 1 / (a * (a + 1)) - 1 / (b * (b + 1)))
  | 2%Z => Ok (if (is0 a && is0 b)%bool then PI ^ 2 / 3 else if (is0 a && negb (is0 b))%bool then vk_M2_zero b else if (negb (is0 a) && is0 b)%bool then vk_M2_zero a
               else 1 / (a ^ 2 * (2 * a + 1)) + 1 / (b ^ 2 * (2 * b + 1)) - 2 / (a * b) * g_beta s (a + 1) (b + 1))
  | 3%Z => Ok (if Req_EM_T a b then 0 else if (is0 a && negb (is0 b))%bool then vk_M3_zero b (-1) else if (negb (is0 a) && is0 b)%bool then vk_M3_zero a 1
               else 1 / (a ^ 3 * (3 * a + 1)) - 1 / (b ^ 3 * (3 * b + 1)) - 3 / (a ^ 2 * b) * g_beta s (2 * a + 1) (b + 1) + 3 / (a * b ^ 2) * g_beta s (a + 1) (2 * b + 1))
  | 4%Z => Ok (if (is0 a && is0 b)%bool then 7 * PI ^ 4 / 15 else if (negb (is0 a) && is0 b)%bool then vk_M4_zero a else if (is0 a && negb (is0 b))%bool then vk_M4_zero b
               else 1 / (a ^ 4 * (4 * a + 1)) + 1 / (b ^ 4 * (4 * b + 1)) + 6 / ((a * b) ^ 2) * g_beta s (2 * a + 1) (2 * b + 1)
                    - 4 / (a ^ 3 * b) * g_beta s (3 * a + 1) (b + 1) - 4 / (a * b ^ 3) * g_beta s (a + 1) (3 * b + 1))
  | _ => Throw
  end.
(** distribution_gld.cpp:189-287 GetMs; the two branches with one zero are the same text but for the sign and the first moment *)
Definition ms_zero (L sign m1 : R) : R * R * R * R :=
  let p3 := L ^ 3 in let p5 := L ^ 5 in let C := g_euler s in let L2 := L * L in let L3 := L2 * L in let L2_1 := L2 * (L + 1) in let pi2_6 := PI ^ 2 / 6 in
  let diG2 := g_digamma s (L + 2) in let c1 := C + g_digamma s (L + 2) in let c2 := C + g_digamma s (2 * L + 2) in let psi := g_polygamma s 1 (L + 2) in
  (m1,
   (2 * (2 * p3 + L ^ 2 - L - 1)) / (L * (L + 1) * (2 * L + 1)) + (2 * c1) / (L * (L + 1)),
   (3 * sign * (12 * p5 + 10 * L2 * L2 - 4 * p3 - L2 + 4 * L + 1)) / (L2_1 * (2 * L + 1) * (3 * L + 1)) - (6 * sign * (C + diG2)) / L2_1 + (3 * sign * c2) / (L2 * (2 * L + 1))
     + (3 * sign * (PI ^ 2 / 6 + (C + diG2) ^ 2 - psi)) / (L * (L + 1)),
   (4 * (144 * L ^ 7 + 156 * L ^ 6 - 18 * p5 - 24 * L2 ^ 2 + 7 * L3 - 11 * L2 - 7 * L - 1)) / (L3 * (L + 1) * (2 * L + 1) * (3 * L + 1) * (4 * L + 1))
     + (12 * c1) / (L3 * (L + 1)) - (12 * c2) / (L3 * (2 * L + 1)) + (4 * (C + g_digamma s (3 * L + 2))) / (L3 * (3 * L + 1))
     - (12 * (pi2_6 + c1 ^ 2 - psi)) / (L2 * (L + 1)) + (6 * (pi2_6 + c2 ^ 2 - g_polygamma s 1 (2 * L + 2))) / (L2 * (2 * L + 1))
     + (4 * (3 * (pi2_6 - psi) * c1 + c1 ^ 3 + 2 * g_zeta3 s + g_polygamma s 2 (L + 2))) / (L * (L + 1))).
Definition get_ms (a b : R) : R * R * R * R :=
  if (is0 a && is0 b)%bool then (0, PI ^ 2 / 3, 0, 7 * PI ^ 4 / 15)
  else if (is0 a && negb (is0 b))%bool then ms_zero b (-1) (- b / (b + 1))
  else if (negb (is0 a) && is0 b)%bool then ms_zero a 1 (a / (a + 1))
  else
    let a2 := a ^ 2 in let a3 := a ^ 3 in let b2 := b ^ 2 in let b3 := b ^ 3 in
    (1 / (a * (a + 1)) - 1 / (b * (b + 1)),
     1 / (a2 * (2 * a + 1)) + 1 / (b2 * (2 * b + 1)) - 2 / (a * b) * g_beta s (a + 1) (b + 1),
     1 / (a3 * (3 * a + 1)) - 1 / (b3 * (3 * b + 1)) - 3 / (a2 * b) * g_beta s (2 * a + 1) (b + 1) + 3 / (a * b2) * g_beta s (a + 1) (2 * b + 1),
     1 / (a ^ 4 * (4 * a + 1)) + 1 / (b ^ 4 * (4 * b + 1)) + 6 / ((a * b) ^ 2) * g_beta s (2 * a + 1) (2 * b + 1)
       - 4 / (a3 * b) * g_beta s (3 * a + 1) (b + 1) - 4 / (a * b3) * g_beta s (a + 1) (3 * b + 1)).

(** ** GetFromMoments *)
Definition is_symmetric (type : Z) : bool := existsb (Z.eqb type) [1; 3; 5; 7; 10]%Z.
(** distribution_gld.cpp:331-341, 378-388 the objective; [x] are L3 and L4 *)
Definition objective (skewness ex_kurtosis : R) (a b : R) : R :=
  let '(m1, m2, m3, m4) := get_ms a b in
  let v := m2 - m1 * m1 in
  let skew := (m3 - 3 * m1 * m2 + 2 * m1 ^ 3) / Rpower v (3 / 2) in
  let exc_kurt := - 3 + (m4 - 4 * m1 * m3 + 6 * m1 * m1 * m2 - 3 * m1 ^ 4) / v ^ 2 in
  (ex_kurtosis - exc_kurt) ^ 2 + (skew - skewness) ^ 2.
(** distribution_gld.cpp:415-443 the objective of type 8 *)
Definition gt (a b : R) : bool := if Rlt_dec b a then true else false.
Definition objective8 (eps skewness ex_kurtosis : R) (a b : R) : R :=
  let penalty := if (gt a (2 + eps) && gt b (1 + eps) && gt (2 - eps) b)%bool then 0
                 else if (gt b (2 + eps) && gt a (1 + eps) && gt (2 - eps) a)%bool then 0
                 else 0 + ((15 / 10 - a) ^ 2 + (15 / 10 - b) ^ 2) in
  let '(m1, m2, m3, m4) := get_ms a b in
  let v := m2 - m1 * m1 in
  let skew := (m3 - 3 * m1 * m2 + 2 * m1 ^ 3) / Rpower v (3 / 2) in
  let exc_kurt := - 3 + (m4 - 4 * m1 * m3 + 6 * m1 * m1 * m2 - 3 * m1 ^ 4) / v ^ 2 in
  penalty * (ex_kurtosis - exc_kurt) ^ 2 + (skew - skewness) ^ 2.
(** distribution_gld.cpp:323-326, 343-361, 390-443 the bounds of L3 and L4; None is infinity. With a symmetric type only the first ones are used. *)
Definition bounds (eps : R) (type : Z) : (R * option R) * (R * option R) :=
  let lo := - (1 / 4) + eps in
  match type with
  | 2%Z => ((lo, Some (1 - eps)), (lo, Some (1 - eps)))
  | 3%Z => ((lo, Some (1 - eps)), (lo, None))
  | 4%Z => ((lo, Some (5 / 10 - eps)), (lo, Some (5 / 10 - eps)))
  | 5%Z => ((lo, Some (5 / 10 - eps)), (lo, None))
  | 6%Z => ((2 + eps, None), (2 + eps, None))
  | 7%Z => ((2 + eps, None), (lo, None))
  | 9%Z => ((1 + eps, Some (2 - eps)), (1 + eps, Some (2 - eps)))
  | 10%Z => ((1 + eps, Some (2 - eps)), (lo, None))
  | 11%Z => ((1 + eps, None), (lo, Some (1 - eps)))
  | _ => ((lo, None), (lo, None))
  end.
(** distribution_gld.cpp:455-469 the result from the shape parameters *)
Definition location_scale (mean variance a b : R) : res (R * R * R * R) :=
  do m1 <- get_mk 1 a b; do m2 <- get_mk 2 a b;
  let L2 := sqrt ((m2 - m1 * m1) / variance) in
  let L1 := if (is0 a || is0 b || if Req_EM_T a b then true else false)%bool then mean - (1 / L2) * m1 else mean - (1 / L2) * (m1 - 1 / a + 1 / b) in
  Ok (L1, L2, a, b).
(** distribution_gld.cpp:296-470 GetFromMoments; [optimize] gets the objective, the start and the bounds of one or two variables *)
Definition from_moments (optimize : (R -> R -> R) -> R * R -> (R * option R) * (R * option R) -> bool -> R * R) (eps mean variance skewness ex_kurtosis : R) (type : Z) (start3 start4 : R) : res (R * R * R * R) :=
  let symmetric := is_symmetric type in
  let f := if symmetric then fun a _ => objective skewness ex_kurtosis a a else if (type =? 8)%Z then objective8 eps skewness ex_kurtosis else objective skewness ex_kurtosis in
  let '(a, b) := optimize f (start3, start4) (bounds eps type) symmetric in
  location_scale mean variance a (if symmetric then a else b).
End Moments.
