(** * Initial states of the shallow-water tests on the sphere
    double is R; trigonometric functions, exp and pow are those of R.  A state is the two
    components of the velocity and the height. *)
From Coq Require Import Reals.
From Verif Require Import PhysModel.
Local Open Scope R_scope.

Record shallow := Shallow { hu : R; hv : R; hh : R }.

(** the latitude moved off the poles, SWTest2.cpp:105-110 *)
Definition nudge (lat : R) : R :=
  let l := if Rlt_dec (Rabs (lat - 1 / 2 * PI)) (1 / 1000000000000) then lat - 1 / 1000000000000 else lat in
  if Rlt_dec (Rabs (l + 1 / 2 * PI)) (1 / 1000000000000) then l + 1 / 1000000000000 else l.
(** SWTest2.cpp:112-129; MountainRossbyTest.cpp:143-167 is the same text.  [al] is
    m_dAlpha. *)
Definition sw2_state (c : constants) (h0 u0 al lon lat' : R) : shallow :=
  let lat := nudge lat' in
  let t := - cos lon * cos lat * sin al + sin lat * cos al in
  Shallow (u0 * cos lat * (cos al + cos lon * tan lat * sin al)) (- u0 * sin lon * sin al)
    (h0 - (earth_radius c * omega c + 1 / 2 * u0) * u0 * t * t / g c).
(** MountainRossbyTest.cpp:113-129 *)
Definition sw_mountain (z0 rc lonc latc lon lat : R) : R :=
  let r := (lon - lonc) * (lon - lonc) + (lat - latc) * (lat - latc) in
  let r := if Rlt_dec (rc * rc) r then rc else sqrt r in
  z0 * (1 - r / rc).

(** RossbyHaurwitzWaveTest.cpp:104-157 *)
Definition haur_a (c : constants) (r w k lat : R) : R :=
  1 / 2 * w * (2 * omega c + w) * cos lat * cos lat
  + 1 / 4 * k * k * Rpower (cos lat) (2 * r) *
    ((r + 1) * cos lat * cos lat + (2 * r * r - r - 2) - 2 * r * r / (cos lat * cos lat)).
Definition haur_b (c : constants) (r w k lat : R) : R :=
  2 * (omega c + w) * k / ((r + 1) * (r + 2)) * Rpower (cos lat) r *
    ((r * r + 2 * r + 2) - (r + 1) * (r + 1) * cos lat * cos lat).
Definition haur_c (r k lat : R) : R :=
  1 / 4 * k * k * Rpower (cos lat) (2 * r) * ((r + 1) * cos lat * cos lat - (r + 2)).
Definition haur_state (c : constants) (h0 r w k lon lat' : R) : shallow :=
  let lat := nudge lat' in
  let gh := g c * h0 + earth_radius c * earth_radius c * haur_a c r w k lat
            + earth_radius c * earth_radius c * haur_b c r w k lat * cos (r * lon)
            + earth_radius c * earth_radius c * haur_c r k lat * cos (2 * r * lon) in
  Shallow ((w * cos lat + k * Rpower (cos lat) (r - 1) * cos (r * lon) * (r * sin lat * sin lat - cos lat * cos lat)) * earth_radius c)
          (- k * r * Rpower (cos lat) (r - 1) * sin lat * sin (r * lon) * earth_radius c)
          (gh / g c).

(** ** BarotropicInstabilityTest.cpp (ShallowWaterEddyTest.cpp has the same text with the
    absolute value of the latitude in EvaluateUPrime and no rotation) *)
(** CalculateRLLPrime, 130-158 *)
Definition rotated (al lon lat : R) : R * R :=
  if Req_EM_T al 0 then (lon, lat) else
  let latp := asin (sin lat * cos al - cos lat * cos lon * sin al) in
  let l1 := asin (sin lon * cos lat / cos latp) in
  let temp := cos al * cos lon * cos lat + sin al * sin lat in
  let l2 := if Rlt_dec temp 0 then PI - l1 else l1 in
  let l3 := if Rlt_dec l2 0 then l2 + 2 * PI else l2 in
  (l3, latp).
(** EvaluateUPrime, 163-182; a division by zero is [None] *)
Definition jet (u0 th0 th1 latp : R) : option R :=
  if Rlt_dec latp th0 then Some 0 else if Rlt_dec th1 latp then Some 0 else
  if Req_EM_T latp th0 then None else if Req_EM_T latp th1 then None else
  let norm := exp (- (4) / (th1 - th0) / (th1 - th0)) in
  Some (u0 / norm * exp (1 / (latp - th0) / (latp - th1))).
(** the velocity, 257-277, [up] being EvaluateUPrime at the rotated point and [lon] the
    longitude brought into [-pi, pi], 244-249 *)
Definition wrapped (lon : R) : R := if Rlt_dec PI lon then lon - 2 * PI else lon.
Definition jet_wind (al up lonp lon lat : R) : R * R :=
  let v := - up * sin al * sin lonp / cos lat in
  let u := if Rlt_dec (Rabs (cos lon)) (1 / 10000000000000) then
             if Rlt_dec (1 / 10000000000000) (Rabs al) then
               if Rlt_dec 0 (cos lon) then - v * cos lat / tan al else v * cos lat / tan al
             else up
           else (v * sin lat * sin lon + up * cos lonp) / cos lon in
  (u, v).
(** the integral of [G] from the south pole to [latp] by two-point Gauss quadrature on [n]
    intervals, 200-233; [G] is the integrand of 228-229 and [n] the count of 201-206 *)
Definition lat_x (n : nat) (latp : R) (i : nat) : R := - (1 / 2) * PI + (latp + 1 / 2 * PI) / INR n * INR i.
Definition gauss_two (G : R -> R) (a b : R) : R :=
  G (1 / 2 * (b + a) + (-1) * sqrt (1 / 3) * (1 / 2) * (b - a)) + G (1 / 2 * (b + a) + 1 * sqrt (1 / 3) * (1 / 2) * (b - a)).
Fixpoint gauss_sum (G : R -> R) (n : nat) (latp : R) (i : nat) : R :=
  match i with O => 0 | S j => gauss_sum G n latp j + gauss_two G (lat_x n latp j) (lat_x n latp (S j)) end.
Definition jet_integral (G : R -> R) (n : nat) (latp : R) : R :=
  gauss_sum G n latp n * (1 / 2 * (lat_x n latp 1 - lat_x n latp 0)).
(** the integrand, 226-229, [U] being EvaluateUPrime *)
Definition jet_integrand (c : constants) (U : R -> R) (x : R) : R :=
  (2 * earth_radius c * omega c * sin x + U x * tan x) * U x.
