(** * Physical constants, vertical stretching and Givens rotations
    double is R; log, exp, pow and sqrt are ln, exp, Rpower and sqrt, used only
    where their arguments are positive. *)
From Coq Require Import Reals List.
Import ListNotations.
Local Open Scope R_scope.

(** ** PhysicalConstants.h *)
(** data members, PhysicalConstants.h:36-111 *)
Record constants := Constants {
  earth_radius : R; g : R; omega : R; alpha : R; gas : R; cp : R; t0 : R; p0 : R;
  rho_water : R; rvap : R; mvap : R; lvap : R;
  kappa : R; gamma : R; scaling : R }.

(** RecalculateKappa, RecalculateGamma, RecalculatePressureScaling,
    PhysicalConstants.h:360-376 *)
Definition recalculate_kappa (c : constants) : constants :=
  Constants (earth_radius c) (g c) (omega c) (alpha c) (gas c) (cp c) (t0 c) (p0 c) (rho_water c) (rvap c) (mvap c) (lvap c)
    (gas c / cp c) (gamma c) (scaling c).
Definition recalculate_gamma (c : constants) : constants :=
  Constants (earth_radius c) (g c) (omega c) (alpha c) (gas c) (cp c) (t0 c) (p0 c) (rho_water c) (rvap c) (mvap c) (lvap c)
    (kappa c) (cp c / (cp c - gas c)) (scaling c).
Definition recalculate_scaling (c : constants) : constants :=
  Constants (earth_radius c) (g c) (omega c) (alpha c) (gas c) (cp c) (t0 c) (p0 c) (rho_water c) (rvap c) (mvap c) (lvap c)
    (kappa c) (gamma c) (p0 c * Rpower (gas c / p0 c) (gamma c)).

(** the constructor, PhysicalConstants.h:120-137; the cached members start
    uninitialised (any values) *)
Definition construct (k y s : R) : constants :=
  recalculate_scaling (recalculate_gamma (recalculate_kappa
    (Constants 6371220 (980616 / 100000) (729212 / 10000000000) 0 287 (10045 / 10) 300 100000 1000
       (4615 / 10) (608 / 1000) 2500000 k y s))).

(** the setters, PhysicalConstants.h:261-354 *)
Inductive setter :=
| SetEarthRadius (x : R) | SetG (x : R) | SetOmega (x : R) | SetAlpha (x : R) | SetR (x : R) | SetCp (x : R)
| SetT0 (x : R) | SetP0 (x : R) | SetRhoWater (x : R) | SetRvap (x : R) | SetMvap (x : R) | SetLvap (x : R).
Definition set (s : setter) (c : constants) : constants :=
  match s with
  | SetEarthRadius x => Constants x (g c) (omega c) (alpha c) (gas c) (cp c) (t0 c) (p0 c) (rho_water c) (rvap c) (mvap c) (lvap c) (kappa c) (gamma c) (scaling c)
  | SetG x => Constants (earth_radius c) x (omega c) (alpha c) (gas c) (cp c) (t0 c) (p0 c) (rho_water c) (rvap c) (mvap c) (lvap c) (kappa c) (gamma c) (scaling c)
  | SetOmega x => Constants (earth_radius c) (g c) x (alpha c) (gas c) (cp c) (t0 c) (p0 c) (rho_water c) (rvap c) (mvap c) (lvap c) (kappa c) (gamma c) (scaling c)
  | SetAlpha x => Constants (earth_radius c) (g c) (omega c) x (gas c) (cp c) (t0 c) (p0 c) (rho_water c) (rvap c) (mvap c) (lvap c) (kappa c) (gamma c) (scaling c)
  | SetR x => recalculate_scaling (recalculate_gamma (recalculate_kappa
      (Constants (earth_radius c) (g c) (omega c) (alpha c) x (cp c) (t0 c) (p0 c) (rho_water c) (rvap c) (mvap c) (lvap c) (kappa c) (gamma c) (scaling c))))
  | SetCp x => recalculate_scaling (recalculate_gamma (recalculate_kappa
      (Constants (earth_radius c) (g c) (omega c) (alpha c) (gas c) x (t0 c) (p0 c) (rho_water c) (rvap c) (mvap c) (lvap c) (kappa c) (gamma c) (scaling c))))
  | SetT0 x => Constants (earth_radius c) (g c) (omega c) (alpha c) (gas c) (cp c) x (p0 c) (rho_water c) (rvap c) (mvap c) (lvap c) (kappa c) (gamma c) (scaling c)
  | SetP0 x => recalculate_scaling
      (Constants (earth_radius c) (g c) (omega c) (alpha c) (gas c) (cp c) (t0 c) x (rho_water c) (rvap c) (mvap c) (lvap c) (kappa c) (gamma c) (scaling c))
  | SetRhoWater x => Constants (earth_radius c) (g c) (omega c) (alpha c) (gas c) (cp c) (t0 c) (p0 c) x (rvap c) (mvap c) (lvap c) (kappa c) (gamma c) (scaling c)
  | SetRvap x => Constants (earth_radius c) (g c) (omega c) (alpha c) (gas c) (cp c) (t0 c) (p0 c) (rho_water c) x (mvap c) (lvap c) (kappa c) (gamma c) (scaling c)
  | SetMvap x => Constants (earth_radius c) (g c) (omega c) (alpha c) (gas c) (cp c) (t0 c) (p0 c) (rho_water c) (rvap c) x (lvap c) (kappa c) (gamma c) (scaling c)
  | SetLvap x => Constants (earth_radius c) (g c) (omega c) (alpha c) (gas c) (cp c) (t0 c) (p0 c) (rho_water c) (rvap c) (mvap c) x (kappa c) (gamma c) (scaling c)
  end.
Definition sets (l : list setter) (c : constants) : constants := fold_left (fun c s => set s c) l c.
(** GetCv, PhysicalConstants.h:187-189 *)
Definition get_cv (c : constants) : R := cp c - gas c.

(** the conversions, PhysicalConstants.h:382-422 *)
Definition pressure_from_rhotheta (c : constants) (x : R) : R := scaling c * exp (ln x * gamma c).
Definition rhotheta_from_pressure (c : constants) (p : R) : R := exp (ln (p / scaling c) / gamma c).
Definition exner_from_rhotheta (c : constants) (x : R) : R := cp c * exp (gas c / (cp c - gas c) * ln (gas c / p0 c * x)).
Definition rhotheta_from_exner (c : constants) (e : R) : R := p0 c / gas c * exp ((cp c - gas c) / gas c * ln (e / cp c)).
Definition exner_from_pressure (c : constants) (p : R) : R := cp c * exp (gas c / cp c * ln (p / p0 c)).
Definition pressure_from_exner (c : constants) (e : R) : R := p0 c * exp (cp c / gas c * ln (e / cp c)).

(** ** VerticalStretch.h: pairs (dREtaStretch, dDxREtaStretch) *)
(** VerticalStretchUniform, VerticalStretch.h:57-64 *)
Definition stretch_uniform (x : R) : R * R := (x, 1).
(** VerticalStretchCubic, VerticalStretch.h:79-97 *)
Definition S1 : R := 1 / 10.
Definition S2 : R := 2.
Definition stretch_cubic (x : R) : R * R :=
  (S1 * x + (3 - 2 * S1 - S2) * x * x + (-2 + S1 + S2) * x * x * x,
   S1 + 2 * (3 - 2 * S1 - S2) * x + 3 * (-2 + S1 + S2) * x * x).
(** VerticalStretchPiecewiseLinear, VerticalStretch.h:113-125 *)
Definition stretch_piecewise (x : R) : R * R :=
  if Rlt_dec x (2 / 3) then (1 / 2 * x, 1 / 2) else (2 * (x - 2 / 3) + 1 / 3, 2).

(** ** JacobianFreeNewtonKrylov::GivensRotationMatrix,
    JacobianFreeNewtonKrylov.cpp:92-114: (dC, dS) *)
Definition givens (a b : R) : R * R :=
  if Req_EM_T b 0 then (1, 0)
  else if Rlt_dec (Rabs a) (Rabs b) then
    let t := a / b in let s := 1 / sqrt (1 + t * t) in (t * s, s)
  else
    let t := b / a in let c := 1 / sqrt (1 + t * t) in (c, t * c).
(** the update of two neighbouring entries, JacobianFreeNewtonKrylov.cpp:246-248 *)
Definition rotate (cs : R * R) (u v : R) : R * R := (fst cs * u + snd cs * v, - snd cs * u + fst cs * v).
(** rotations k = 0 .. i-1 applied in turn to a column (H(0,i), ..., H(i,i)),
    JacobianFreeNewtonKrylov.cpp:243-249 *)
Fixpoint rotate_column (rs : list (R * R)) (h : list R) : list R :=
  match rs, h with
  | r :: rs', u :: v :: h' => let '(u', v') := rotate r u v in u' :: rotate_column rs' (v' :: h')
  | _, _ => h
  end.
