(** * The tropical cyclone
    test/dcmip2016/interface/tropical_cyclone_test.f90 and EvaluatePointwiseState of
    test/dcmip2016/TropicalCycloneTest.cpp:134-180, which asks for the state at a height
    (zcoords = 1).  REAL(8) is R; x**2.d0 is x * x and x**1.5d0 is [power32]; the
    parameters, 48-88, are a record, with the derived ones as definitions. *)
From Coq Require Import Reals.
Local Open Scope R_scope.

(** 48-84: gas Rd, grav g, cpd cp, pref p0, om omega, ae a; rp, dp, zp, q0, gamma, Ts0, p00, the
    centre in radians, zq1, zq2, ztrop, qtrop, constTv *)
Record storm := Storm {
  ae : R; gas : R; grav : R; cpd : R; pref : R; om : R; rp : R; dp : R; zp : R; q0 : R; gamma : R; ts0 : R; p00 : R;
  clat : R; clon : R; zq1 : R; zq2 : R; ztrop : R; qtrop : R; const_tv : R; tiny : R }.

Section Sample.
Context (s : storm).
(** 85-88 *)
Definition exponent : R := gas s * gamma s / grav s.
Definition t0 : R := ts0 s * (1 + const_tv s * q0 s).
Definition t_trop : R := t0 - gamma s * ztrop s.
Definition p_trop : R := p00 s * Rpower (t_trop / t0) (1 / exponent).
(** x**1.5d0, zero for zero *)
Definition power32 (x : R) : R := if Rlt_dec 0 x then Rpower x (3 / 2) else 0.

(** Coriolis parameter and distance, 136-138 *)
Definition coriolis : R := 2 * om s * sin (clat s).
Definition cos_distance (lon lat : R) : R := sin (clat s) * sin lat + cos (clat s) * cos lat * cos (lon - clon s).
Definition distance (lon lat : R) : R := ae s * acos (cos_distance lon lat).
(** the surface pressure, 143 *)
Definition surface (r : R) : R := p00 s - dp s * exp (- power32 (r / rp s)).
(** the pressure at a height, 151-158 *)
Definition lower (r z : R) : R :=
  (p00 s - dp s * exp (- power32 (r / rp s)) * exp (- (z / zp s * (z / zp s)))) * Rpower ((t0 - gamma s * z) / t0) (1 / exponent).
Definition pressure (r z : R) : R :=
  if Rlt_dec (ztrop s) z then p_trop * exp (- (grav s * (z - ztrop s)) / (gas s * t_trop)) else lower r z.

(** the factors of the wind, 187-192 *)
Definition d1 (lon lat : R) : R := sin (clat s) * cos lat - cos (clat s) * sin lat * cos (lon - clon s).
Definition d2 (lon lat : R) : R := cos (clat s) * sin (lon - clon s).
Definition dd (lon lat : R) : R := Rmax (tiny s) (sqrt (d1 lon lat * d1 lon lat + d2 lon lat * d2 lon lat)).
(** the speed, 194-206 *)
Definition speed (r z : R) : R :=
  if Rlt_dec (ztrop s) z then 0
  else - coriolis * r / 2 + sqrt ((coriolis * r / 2) * (coriolis * r / 2)
    - 3 / 2 * power32 (r / rp s) * gas s * (t0 - gamma s * z)
      / (2 * z * gas s * (t0 - gamma s * z) / (grav s * (zp s * zp s))
         + (1 - p00 s / dp s * exp (power32 (r / rp s)) * exp (z / zp s * (z / zp s))))).
Definition zonal (lon lat z : R) : R := d1 lon lat / dd lon lat * speed (distance lon lat) z.
Definition meridional (lon lat z : R) : R := d2 lon lat / dd lon lat * speed (distance lon lat) z.

(** humidity, 211-215, temperature, 220-225, virtual potential temperature, 230, and
    density, 240 *)
Definition humidity (z : R) : R :=
  if Rlt_dec (ztrop s) z then qtrop s else q0 s * exp (- z / zq1 s) * exp (- (z / zq2 s * (z / zq2 s))).
Definition temperature (r z : R) : R :=
  if Rlt_dec (ztrop s) z then t_trop
  else (t0 - gamma s * z) / (1 + const_tv s * humidity z)
       / (1 + 2 * gas s * (t0 - gamma s * z) * z / (grav s * (zp s * zp s) * (1 - p00 s / dp s * exp (power32 (r / rp s)) * exp (z / zp s * (z / zp s))))).
Definition thetav (r z : R) : R := temperature r z * (1 + const_tv s * humidity z) * Rpower (pref s / pressure r z) (gas s / cpd s).
Definition density (r z : R) : R := pressure r z / (gas s * temperature r z * (1 + const_tv s * humidity z)).

(** the function of the iteration and its derivative, 247-254, 259-266 *)
Definition fpi_f (p r z : R) : R :=
  p - (p00 s - dp s * exp (- power32 (r / rp s)) * exp (- (z / zp s * (z / zp s)))) * Rpower ((t0 - gamma s * z) / t0) (grav s / (gas s * gamma s)).
Definition fpi_df (r z : R) : R :=
  - (2 * z * dp s * exp (- power32 (r / rp s)) * exp (- (z / zp s * (z / zp s))) / (zp s * zp s) * Rpower ((t0 - gamma s * z) / t0) (grav s / (gas s * gamma s)))
  + grav s / (gas s * t0) * (p00 s - dp s * exp (- power32 (r / rp s)) * exp (- (z / zp s * (z / zp s)))) * Rpower ((t0 - gamma s * z) / t0) (grav s / (gas s * gamma s) - 1).
End Sample.
