(** * Initial states and sponge layers of the Cartesian tests
    double is R; exp, pow, sqrt and cos are those of R, pow used with a positive
    base only.  m_dpiC and M_PI are PI.  Tracers are left out (these tests set
    none). *)
From Coq Require Import Reals.
From Verif Require Import PhysModel.
Local Open Scope R_scope.

(** dState[0..4]: U, V, theta, W, rho *)
Record state := State { su : R; sv : R; stheta : R; sw : R; srho : R }.

(** ** Constant potential temperature *)
(** the Exner pressure and the density of EvaluateReferenceState,
    ThermalBubbleCartesianTest.cpp:208-213; the same text in
    ThermalBubbleCartesian3DTest.cpp:217-222, RobertBubbleCartesianTest.cpp:203-208
    and DensityCurrentCartesianTest.cpp:257-262 *)
Definition neutral_exner (c : constants) (thetabar z : R) : R := - g c / (cp c * thetabar) * z + 1.
Definition neutral_rho (c : constants) (thetabar z : R) : R :=
  p0 c / (gas c * thetabar) * Rpower (neutral_exner c thetabar z) (get_cv c / gas c).
(** EvaluateReferenceState, ThermalBubbleCartesianTest.cpp:190-216 *)
Definition neutral_reference (c : constants) (thetabar z : R) : state :=
  State 0 0 thetabar 0 (neutral_rho c thetabar z).
(** EvaluateTPrime, ThermalBubbleCartesianTest.cpp:166-185 (RobertBubble: 161-180) *)
Definition bubble_prime (xc zc rc thetac x z : R) : R :=
  let r := sqrt ((x - xc) * (x - xc) + (z - zc) * (z - zc)) in
  if Rle_dec r rc then 1 / 2 * thetac * (1 + cos (PI * r / rc)) else 0.
(** EvaluateTPrime, DensityCurrentCartesianTest.cpp:214-234 *)
Definition current_prime (xc zc rc thetac x z exner : R) : R :=
  let r := sqrt ((x - xc) * (x - xc) / (4000 * 4000) + (z - zc) * (z - zc) / (2000 * 2000)) in
  if Rle_dec r rc then 1 / 2 * thetac * (1 + cos (PI * r)) / exner else 0.
(** EvaluatePointwiseState, ThermalBubbleCartesianTest.cpp:223-254 *)
Definition bubble_state (c : constants) (thetabar xc zc rc thetac x z : R) : state :=
  State 0 0 (thetabar + bubble_prime xc zc rc thetac x z) 0 (neutral_rho c thetabar z).
(** EvaluatePointwiseState, DensityCurrentCartesianTest.cpp:272-303 *)
Definition current_state (c : constants) (thetabar xc zc rc thetac x z : R) : state :=
  State 0 0 (thetabar + current_prime xc zc rc thetac x z (neutral_exner c thetabar z)) 0 (neutral_rho c thetabar z).

(** ** Constant Brunt-Vaisala frequency *)
(** ScharMountainCartesianTest.cpp:246-274; the same text in
    NonHydroMountainCartesianTest.cpp and InertialGravityCartesianXZTest.cpp:246-277 *)
Definition strat_theta (c : constants) (theta0 n z : R) : R := theta0 * exp (n * n / g c * z).
Definition strat_exner (c : constants) (theta0 n z : R) : R :=
  (g c * g c) / (cp c * theta0 * n * n) * (exp (- n * n / g c * z) - 1) + 1.
Definition strat_rho (c : constants) (theta0 n z : R) : R :=
  p0 c / (gas c * strat_theta c theta0 n z) * Rpower (strat_exner c theta0 n z) (get_cv c / gas c).
(** EvaluateReferenceState, ScharMountainCartesianTest.cpp:234-276: the branch for
    dG == 0 *)
Definition strat_reference (c : constants) (theta0 n u0 z : R) : state :=
  if Req_EM_T (g c) 0 then State u0 0 (300 * Rpower (p0 c) (gas c / cp c)) 0 (p0 c / (gas c * 300))
  else State u0 0 (strat_theta c theta0 n z) 0 (strat_rho c theta0 n z).
(** EvaluatePointwiseState, ScharMountainCartesianTest.cpp:281-316: no such branch, so
    that dG == 0 divides by zero ([None]) *)
Definition strat_state (c : constants) (theta0 n u0 z : R) : option state :=
  if Req_EM_T (g c) 0 then None else Some (State u0 0 (strat_theta c theta0 n z) 0 (strat_rho c theta0 n z)).
(** EvaluateTPrime, InertialGravityCartesianXZTest.cpp:227-241 and
    EvaluatePointwiseState, 280-314 *)
Definition gravity_prime (xc ac hc thetac x z : R) : R :=
  thetac * sin (PI * z / hc) / (1 + (x - xc) / ac * ((x - xc) / ac)).
Definition gravity_state (c : constants) (theta0 n u0 xc ac hc thetac x z : R) : state :=
  State u0 0 (strat_theta c theta0 n z + gravity_prime xc ac hc thetac x z) 0 (strat_rho c theta0 n z).

(** ** Isothermal: HydrostaticMountainCartesianTest.cpp:217-249 (and 254-288) *)
Definition iso_n (c : constants) (temp : R) : R := g c / sqrt (cp c * temp).
Definition iso_theta (c : constants) (temp z : R) : R := temp * exp (iso_n c temp * iso_n c temp / g c * z).
Definition iso_exner (c : constants) (temp z : R) : R := exp (- g c / (cp c * temp) * z).
Definition iso_rho (c : constants) (temp z : R) : R :=
  p0 c / (gas c * iso_theta c temp z) * Rpower (iso_exner c temp z) (get_cv c / gas c).
Definition iso_state (c : constants) (temp u0 z : R) : state := State u0 0 (iso_theta c temp z) 0 (iso_rho c temp z).

(** ** EvaluateRayleighStrength *)
(** the layer at the top of the model: ScharMountainCartesianTest.cpp:208-211; alone in
    MountainWaveSphereTest.cpp:142-157, MountainRossby3DTest.cpp:161-177 and
    BaroclinicWaveUMJSTest.cpp:205-221 *)
Definition nu_depth (s depth top z : R) : R :=
  if Rlt_dec (top - depth) z then 1 / 2 * s * (1 + cos (PI * ((top - z) / depth))) else 0.
(** the layers at the right and left ends: ScharMountainCartesianTest.cpp:212-219 *)
Definition nu_right (s width xmax x : R) : R :=
  if Rlt_dec (xmax - width) x then 1 / 2 * s * (1 + cos (PI * ((xmax - x) / width))) else 0.
Definition nu_left (s width xmin x : R) : R :=
  if Rlt_dec x (xmin + width) then 1 / 2 * s * (1 + cos (PI * ((x - xmin) / width))) else 0.
(** HydrostaticMountainCartesianTest.cpp:193-196 *)
Definition nu_left_hydrostatic (s width xmin x : R) : R :=
  if Rlt_dec x (xmin + width) then 1 / 2 * s * (1 + cos (PI * (1 - (x - xmin) / width))) else 0.
(** the choice, ScharMountainCartesianTest.cpp:222-228 *)
Definition nu_choose (d r l : R) : R :=
  if Rge_dec d r then (if Rge_dec d l then d else if Rge_dec r l then r else l)
  else if Rge_dec r l then r else l.
(** EvaluateRayleighStrength, ScharMountainCartesianTest.cpp:194-229 (strengths, depth and
    width as parameters; NonHydroMountain, DensityCurrent 176-209, ShearJet 311-347 and
    InertialGravity 178-211 differ in them only) *)
Definition strength (sz sx depth width xmin xmax top x z : R) : R :=
  nu_choose (nu_depth sz depth top z) (nu_right sx width xmax x) (nu_left sx width xmin x).
(** EvaluateRayleighStrength, HydrostaticMountainCartesianTest.cpp:172-205 *)
Definition strength_hydrostatic (s depth width xmin xmax top x z : R) : R :=
  nu_choose (nu_depth s depth top z) (nu_right s width xmax x) (nu_left_hydrostatic s width xmin x).
(** EvaluateRayleighStrength, ScharMountainSphereTest.cpp:194-210 *)
Definition strength_sphere (zh top tau z : R) : R :=
  (if Rlt_dec zh z then sin (PI / 2 * ((z - zh) / (top - zh))) * sin (PI / 2 * ((z - zh) / (top - zh))) else 0) / tau.
