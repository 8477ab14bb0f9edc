(** * The terminator chemistry of test/dcmip2016
    double is R; the decimal value of pi in Terminator.f90:17 is PI, the single
    precision literal 1e-16 is 1 / 10^16. *)
From Coq Require Import Reals List ZArith.
Import ListNotations.
Local Open Scope R_scope.

(** Terminator.f90:16-21 *)
Definition cly_constant : R := 4 / 1000000.
Definition degrees : R := PI / 180.
Definition lat_center : R := 20 * degrees.
Definition lon_center : R := 300 * degrees.
(** k_vals, Terminator.f90:29-42 *)
Definition k1 (lat lon : R) : R :=
  1 * Rmax 0 (sin lat * sin lat_center + cos lat * cos lat_center * cos (lon - lon_center)).
Definition k2 : R := 1.
(** r, det, Terminator.f90:71-74 *)
Definition ratio (a b : R) : R := a / (4 * b).
Definition det (r cly : R) : R := sqrt (r * r + 2 * r * cly).
(** el, Terminator.f90:77-81 *)
Definition el (b d dt : R) : R :=
  if Rlt_dec (/ 10 ^ 16) (Rabs (d * b * dt)) then (1 - exp (-4 * b * d * dt)) / d / dt else 4 * b.
(** cl_f, Terminator.f90:71-83, for the rates [a] and [b] *)
Definition cl_rate (a b cl cl2 dt : R) : R :=
  let r := ratio a b in let cly := cl + 2 * cl2 in let d := det r cly in
  let expdt := exp (-4 * b * d * dt) in let e := el b d dt in
  - e * (cl - d + r) * (cl + d + r) / (1 + expdt + dt * e * (cl + r)).
(** tendency_Terminator, Terminator.f90:48-88: (cl_f, cl2_f) *)
Definition tendency (lat lon cl cl2 dt : R) : R * R :=
  let f := cl_rate (k1 (lat * degrees) (lon * degrees)) k2 cl cl2 dt in (f, - f / 2).
(** initial_value_Terminator, Terminator.f90:94-121: (cl, cl2) *)
Definition initial_value (lat lon : R) : R * R :=
  let r := ratio (k1 (lat * degrees) (lon * degrees)) k2 in
  let d := sqrt (r * r + 2 * cly_constant * r) in (d - r, cly_constant / 2 - (d - r) / 2).

(** the body of the loop of TerminatorPhysics::Perform for one cell,
    TerminatorPhysics.cpp:109-130: density, the two tracers, position in radians *)
Definition cell (dt lat lon rho m1 m2 : R) : R * R :=
  let f := tendency (lat * 180 / PI) (lon * 180 / PI) (m1 / rho) (m2 / rho) dt in
  (m1 + dt * rho * fst f, m2 + dt * rho * snd f).

(** storage of a DataArray4D of size (components, nA, nB, nR): the offset of
    [c][x][y][z], DataArray4D.h:470-520; sizes of the tracers, GridPatch.cpp:379-383 *)
Definition offset (nA nB nR c x y z : Z) : Z := (((c * nA + x) * nB + y) * nR + z)%Z.
(** the entries visited for tracer [c], in the order of the indices written in
    TerminatorPhysics.cpp:105-130: level first *)
Definition visit (nA nB nR c i j k : Z) : Z := offset nA nB nR c k i j.
(** the loop over a list of cells within one component: cell number, latitude
    and longitude used *)
Record tracers := Tracers { m1 : nat -> R; m2 : nat -> R }.
Definition put (f : nat -> R) (n : nat) (v : R) (x : nat) : R := if Nat.eqb x n then v else f x.
Definition visit_cell (dt : R) (rho : nat -> R) (s : tracers) (p : nat * (R * R)) : tracers :=
  let '(n, (lat, lon)) := p in let v := cell dt lat lon (rho n) (m1 s n) (m2 s n) in
  Tracers (put (m1 s) n (fst v)) (put (m2 s) n (snd v)).
Definition perform (dt : R) (rho : nat -> R) (l : list (nat * (R * R))) (s : tracers) : tracers :=
  fold_left (visit_cell dt rho) l s.
