(** * The supercell
    The functions of test/dcmip2016/interface/supercell_test.f90 that give the state at a
    point.  REAL(8) is R, x**2 is x * x.  The tables that supercell_init fills by integrals
    with pseudo-inverses (106-346) are arbitrary; the coefficients of
    lagrangian_polynomial_coeffs, 683-714, are those of PolynomialInterp, which has the same
    loop (InterpModel.lagrange; [None] is a division by zero). *)
From Coq Require Import Reals List.
From Verif Require Import InterpModel.
Import ListNotations.
Local Open Scope R_scope.

(** 47-95: a, Rd, g, cp, p0; theta0, theta_tr, z_tr, T_tr; us, uc, zs, zt; pert_dtheta, the centre
    of the perturbation in radians, pert_rh, pert_zc, pert_rz.  [c61] is the literal 0.61 *)
Record cell := Cell {
  ra : R; rd : R; gr : R; cp : R; p0 : R; theta0 : R; theta_tr : R; z_tr : R; t_tr : R;
  us : R; uc : R; zs : R; zt : R;
  dtheta : R; latc : R; lonc : R; rh : R; zc : R; rz : R; c61 : R }.

(** zonal_velocity, 603-620 *)
Definition zonal_velocity (c : cell) (z lat : R) : R :=
  (if Rle_dec z (zs c - zt c) then us c * (z / zs c) - uc c
   else if Rle_dec (Rabs (z - zs c)) (zt c) then (- (4 / 5) + 3 * z / zs c - 5 / 4 * (z * z) / (zs c * zs c)) * us c - uc c
   else us c - uc c) * cos lat.
(** x**1.25d0, zero for zero *)
Definition power54 (x : R) : R := if Rlt_dec 0 x then Rpower x (5 / 4) else 0.
(** equator_theta, 625-639, and equator_relative_humidity, 645-657 *)
Definition equator_theta (c : cell) (z : R) : R :=
  if Rle_dec z (z_tr c) then theta0 c + (theta_tr c - theta0 c) * power54 (z / z_tr c) else theta_tr c * exp (gr c / cp c / t_tr c * (z - z_tr c)).
Definition equator_humidity (c : cell) (z : R) : R :=
  if Rle_dec z (z_tr c) then 1 - 3 / 4 * power54 (z / z_tr c) else 1 / 4.

(** thermal_perturbation, 574-598 *)
Definition arc (c : cell) (lon lat : R) : R :=
  ra c * acos (sin (latc c) * sin lat + cos (latc c) * cos lat * cos (lon - lonc c)).
Definition r_theta (c : cell) (lon lat z : R) : R :=
  sqrt (arc c lon lat / rh c * (arc c lon lat / rh c) + (z - zc c) / rz c * ((z - zc c) / rz c)).
Definition bubble (c : cell) (r : R) : R := if Rle_dec r 1 then dtheta c * (cos (1 / 2 * PI * r) * cos (1 / 2 * PI * r)) else 0.
Definition thermal (c : cell) (lon lat z : R) : R := bubble c (r_theta c lon lat z).

(** the fit of supercell_z, 467-485: dot_product with the coefficients *)
Fixpoint dot (a : list R) (f : nat -> R) : R := match a with [] => 0 | x :: r => x * f 0%nat + dot r (fun i => f (S i)) end.
Definition nh_lat (lat : R) : R := if Rle_dec lat 0 then - lat else lat.
Definition sample (nphi nz : nat) (phi zco : nat -> R) (table : nat -> nat -> R) (lat z : R) : option R :=
  bind (lagrange nz zco z) (fun fitz => bind (lagrange nphi phi (nh_lat lat)) (fun fitphi =>
    Some (dot fitz (fun k => dot fitphi (fun i => table i k))))).
(** what supercell_z makes of the fitted Exner pressure, virtual potential temperature and
    humidity, 476, 488-497; the perturbation is [d], zero if pert = 0 *)
Record point := Point { sp : R; sthetav : R; srho : R }.
Definition finish (c : cell) (exner thv q d : R) : point :=
  let p := p0 c * Rpower exner (cp c / rd c) in
  let rho := p / (rd c * exner * thv) in
  let th := thv + d * (1 + c61 c * q) in
  Point (p0 c * Rpower (rho * rd c * th / p0 c) (cp c / (cp c - rd c))) th rho.
(** the temperature, 424 *)
Definition temperature (c : cell) (thetav q p : R) : R := thetav / (1 + c61 c * q) * Rpower (p / p0 c) (rd c / cp c).

(** supercell_p, 504-569: the height of a pressure, for the pressure as a function of the
    height; [Stop] is a stop statement, [Undefined] a division by zero *)
Inductive search := Found (z : R) | Stop | Undefined.
Fixpoint iterate (f : R -> R) (p : R) (n : nat) (za zb pa pb : R) : search :=
  match n with
  | O => Stop
  | S m =>
    if Req_EM_T (pb - pa) 0 then Undefined
    else let z := (za * (pb - p) - zb * (pa - p)) / (pb - pa) in
         let pc := f z in
         if Rlt_dec (Rabs ((pc - p) / p)) (/ 10 ^ 12) then Found z
         else if Rlt_dec p pc then iterate f p m z zb pc pb else iterate f p m za z pa pc
  end.
Definition height_of (f : R -> R) (z1 z2 p : R) : search :=
  if Rlt_dec (f z1) p then Stop else if Rlt_dec p (f z2) then Stop else iterate f p 20 z1 z2 (f z1) (f z2).
