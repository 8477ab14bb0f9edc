(** * Initial states of the tests on the sphere
    double is R; exp, pow, sqrt, sin and cos are those of R, pow used with a positive
    base only.  Perturbations added to the wind or the potential temperature are
    modelled where a claim needs them; tracers are left out. *)
From Coq Require Import Reals.
From Verif Require Import PhysModel InitModel.
Local Open Scope R_scope.

(** the last lines of each: rho from pressure and temperature, theta from
    RhoThetaFromPressure; MountainRossby3DTest.cpp:209-218 *)
Definition from_pressure (c : constants) (u p t : R) : state :=
  State u 0 (rhotheta_from_pressure c p / (p / (gas c * t))) 0 (p / (gas c * t)).

(** ** MountainRossby3DTest.cpp:190-219 *)
Definition rossby_pressure (c : constants) (pp t0 u0 z lat : R) : R :=
  pp * exp (- u0 / (2 * gas c * t0) * (sin lat * sin lat - 1) * (u0 + 2 * omega c * earth_radius c)
            - g c * z / (gas c * t0)).
Definition rossby_state (c : constants) (pp t0 u0 z lat : R) : state :=
  from_pressure c (u0 * cos lat) (rossby_pressure c pp t0 u0 z lat) t0.

(** ** MountainWaveSphereTest.cpp:168-202; the density is p / (g H) *)
Definition wave_h (c : constants) (t0 : R) : R := gas c * t0 / g c.
Definition wave_pressure (c : constants) (t0 u0 z lat : R) : R :=
  let fr2 := u0 * u0 / (g c * wave_h c t0) in
  let inv_ro := 2 * earth_radius c * omega c / u0 in
  p0 c * exp (- z / wave_h c t0) * exp (- (1 / 2) * fr2 * (1 + inv_ro) * sin lat * sin lat).
Definition wave_state (c : constants) (t0 u0 z lat : R) : state :=
  let p := wave_pressure c t0 u0 z lat in
  let rho := p / (g c * wave_h c t0) in
  State (u0 * cos lat) 0 (rhotheta_from_pressure c p / rho) 0 rho.

(** ** ScharMountainSphereTest.cpp:222-254 *)
Definition schar_t (c : constants) (teq ueq cs lat : R) : R := teq * (1 - cs * ueq * ueq / g c * (sin lat * sin lat)).
Definition schar_pressure (c : constants) (teq ueq cs z lat : R) : R :=
  p0 c * exp (- ueq * ueq / (2 * gas c * teq) * (sin lat * sin lat) - g c * z / (gas c * schar_t c teq ueq cs lat)).
Definition schar_u (c : constants) (teq ueq cs z lat : R) : R :=
  ueq * cos lat * sqrt (2 * teq / schar_t c teq ueq cs lat * cs * z + schar_t c teq ueq cs lat / teq).
Definition schar_state (c : constants) (teq ueq cs z lat : R) : state :=
  from_pressure c (schar_u c teq ueq cs z lat) (schar_pressure c teq ueq cs z lat) (schar_t c teq ueq cs lat).

(** ** InertiaGravityWaveTest.cpp:157-209; the exception for a negative pressure is
    [None] *)
Definition inert_g (c : constants) (n : R) : R := g c * g c / (n * n * cp c).
Definition inert_ts (c : constants) (u0 n teq lat : R) : R :=
  inert_g c n + (teq - inert_g c n)
    * exp (- u0 * n * n / 4 / (g c * g c) * (u0 + 2 * omega c * earth_radius c) * (cos (2 * lat) - 1)).
Definition inert_t (c : constants) (u0 n teq z lat : R) : R :=
  inert_g c n + (inert_ts c u0 n teq lat - inert_g c n) * exp (n * n * z / g c).
Definition inert_vert (c : constants) (u0 n teq z lat : R) : R :=
  inert_g c n / inert_ts c u0 n teq lat * exp (- n * n * z / g c) + 1 - inert_g c n / inert_ts c u0 n teq lat.
Definition inert_ps (c : constants) (u0 n teq lat : R) : R :=
  p0 c * exp (u0 / (4 * inert_g c n * gas c) * (u0 + 2 * omega c * earth_radius c) * (cos (2 * lat) - 1))
    * Rpower (inert_ts c u0 n teq lat / teq) (1 / kappa c).
Definition inert_pressure (c : constants) (u0 n teq z lat : R) : R :=
  inert_ps c u0 n teq lat * Rpower (inert_vert c u0 n teq z lat) (1 / kappa c).
Definition inert_state (c : constants) (u0 n teq z lat : R) : option state :=
  if Rlt_dec (inert_pressure c u0 n teq z lat) 0 then None
  else Some (from_pressure c (u0 * cos lat) (inert_pressure c u0 n teq z lat) (inert_t c u0 n teq z lat)).

(** ** StationaryMountainFlowTest.cpp:184-209 *)
Definition still_pressure (c : constants) (t0 gam z : R) : R :=
  p0 c * Rpower (1 - gam / t0 * z) (g c / (gas c * gam)).
Definition still_state (c : constants) (t0 gam z : R) : state :=
  from_pressure c 0 (still_pressure c t0 gam z) (t0 - gam * z).

(** ** BaldaufGravityWaveTest.cpp:113-134 and 139-192 *)
Definition baldauf_pressure (c : constants) (t0 z : R) : R := p0 c * exp (- g c * z / (gas c * t0)).
Definition baldauf_reference (c : constants) (t0 z : R) : state := from_pressure c 0 (baldauf_pressure c t0 z) t0.
Definition baldauf_state (c : constants) (t0 mag ztop z lat : R) : state :=
  let p := baldauf_pressure c t0 z in
  let t := p / (p / (gas c * t0) * gas c) + mag * exp (- (100) * lat * lat) * sin (PI * z / ztop) in
  from_pressure c 0 p t.

(** ** BaroclinicWaveUMJSTest.cpp:360-452 and 457-589 with m_fDeepAtmosphere false *)
Record umjs := Umjs { t0e : R; t0p : R; pb : R; pk : R; lapse : R }.
Definition um_t0 (q : umjs) : R := 1 / 2 * (t0e q + t0p q).
Definition um_a (q : umjs) : R := 1 / lapse q.
Definition um_b (q : umjs) : R := (um_t0 q - t0p q) / (um_t0 q * t0p q).
Definition um_c (q : umjs) : R := 1 / 2 * (pk q + 2) * (t0e q - t0p q) / (t0e q * t0p q).
Definition um_h (c : constants) (q : umjs) : R := gas c * um_t0 q / g c.
Definition um_scaled (c : constants) (q : umjs) (z : R) : R := z / (pb q * um_h c q).
Definition um_tau1 (c : constants) (q : umjs) (z : R) : R :=
  um_a q * lapse q / um_t0 q * exp (lapse q / um_t0 q * z)
  + um_b q * (1 - 2 * um_scaled c q z * um_scaled c q z) * exp (- (um_scaled c q z) * um_scaled c q z).
Definition um_tau2 (c : constants) (q : umjs) (z : R) : R :=
  um_c q * (1 - 2 * um_scaled c q z * um_scaled c q z) * exp (- (um_scaled c q z) * um_scaled c q z).
Definition um_int1 (c : constants) (q : umjs) (z : R) : R :=
  um_a q * (exp (lapse q / um_t0 q * z) - 1) + um_b q * z * exp (- (um_scaled c q z) * um_scaled c q z).
Definition um_int2 (c : constants) (q : umjs) (z : R) : R :=
  um_c q * z * exp (- (um_scaled c q z) * um_scaled c q z).
Definition um_interior (q : umjs) (lat : R) : R :=
  Rpower (1 * cos lat) (pk q) - pk q / (pk q + 2) * Rpower (1 * cos lat) (pk q + 2).
Definition um_temperature (c : constants) (q : umjs) (z lat : R) : R :=
  1 / (1 * 1) / (um_tau1 c q z - um_tau2 c q z * um_interior q lat).
Definition um_pressure (c : constants) (q : umjs) (z lat : R) : R :=
  p0 c * exp (- g c / gas c * (um_int1 c q z - um_int2 c q z * um_interior q lat)).
(** the wind, BaroclinicWaveUMJSTest.cpp:526-549; the exception for a negative
    discriminant is [None] *)
Definition um_big_u (c : constants) (q : umjs) (z lat : R) : R :=
  g c / earth_radius c * pk q * um_int2 c q z * (Rpower (1 * cos lat) (pk q - 1) - Rpower (1 * cos lat) (pk q + 1))
    * um_temperature c q z lat.
Definition um_disc (c : constants) (q : umjs) (z lat : R) : R :=
  let rc := earth_radius c * cos lat in
  (omega c * rc) * (omega c * rc) + rc * um_big_u c q z lat.
Definition um_u (c : constants) (q : umjs) (z lat : R) : option R :=
  if Rlt_dec (um_disc c q z lat) 0 then None
  else Some (- (omega c * (earth_radius c * cos lat)) + sqrt (um_disc c q z lat)).
Definition um_reference (c : constants) (q : umjs) (z lat : R) : state :=
  from_pressure c 0 (um_pressure c q z lat) (um_temperature c q z lat).
Definition um_state (c : constants) (q : umjs) (z lat : R) : option state :=
  option_map (fun u => from_pressure c u (um_pressure c q z lat) (um_temperature c q z lat)) (um_u c q z lat).
