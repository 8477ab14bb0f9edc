(** * The moist baroclinic wave
    test/dcmip2016/interface/baroclinic_wave_test.f90 for a given height (zcoords = 1), in
    the deep and in the shallow atmosphere, and EvaluatePointwiseState of
    test/dcmip2016/BaroclinicWaveUMJSTest.cpp:142-212, which calls it with deep = 0,
    moist = 1, pertt = 0 and X = 1.  REAL(8) is R, x**2 is x * x; the parameters, 49-91, are
    a record.  evaluate_z_temperature and the stream function, 328-373 and 410-440, which
    that caller does not reach, are not modelled. *)
From Coq Require Import Reals.
Local Open Scope R_scope.

(** 49-60 and 65-91: a, Rd, g, cp, p0, omega, Mvap; T0E, T0P, B, K, lapse; pertup, pertexpr,
    pertlon, pertlat, pertz; moistqlat, moistqp, moisttr, moistqs, moistq0.  [m61] is the
    literal 0.61 of line 247 *)
Record wave := Wave {
  ra : R; rd : R; gr : R; cp : R; p0 : R; omega : R; mvap : R; m61 : R;
  t0e : R; t0p : R; pb : R; pk : R; lapse : R;
  pertup : R; pertexpr : R; pertlon : R; pertlat : R; pertz : R;
  qlat : R; qp : R; qtr : R; qs : R; q0 : R }.

Section Sample.
Context (w : wave) (deep : bool) (X : R).
(** the constants, 154-165 and 276-285 *)
Definition aref : R := ra w / X.
Definition omegaref : R := omega w * X.
Definition wt0 : R := 1 / 2 * (t0e w + t0p w).
Definition const_a : R := 1 / lapse w.
Definition const_b : R := (wt0 - t0p w) / (wt0 * t0p w).
Definition const_c : R := 1 / 2 * (pk w + 2) * (t0e w - t0p w) / (t0e w * t0p w).
Definition const_h : R := rd w * wt0 / gr w.
Definition scaled (z : R) : R := z / (pb w * const_h).
(** 290-296 *)
Definition tau1 (z : R) : R :=
  const_a * lapse w / wt0 * exp (lapse w * z / wt0) + const_b * (1 - 2 * (scaled z * scaled z)) * exp (- (scaled z * scaled z)).
Definition tau2 (z : R) : R := const_c * (1 - 2 * (scaled z * scaled z)) * exp (- (scaled z * scaled z)).
Definition int_tau1 (z : R) : R := const_a * (exp (lapse w * z / wt0) - 1) + const_b * z * exp (- (scaled z * scaled z)).
Definition int_tau2 (z : R) : R := const_c * z * exp (- (scaled z * scaled z)).
(** the radius ratio, 301-305 and 168-172 *)
Definition rratio (z : R) : R := if deep then (z + aref) / aref else 1.
(** x**e for a real e, zero for zero *)
Definition power (x e : R) : R := if Rlt_dec 0 x then Rpower x e else 0.
(** 310-311, 316 and 321; [temp] is the temperature before line 238, that is the virtual
    one *)
Definition inner (x : R) : R := power x (pk w) - pk w / (pk w + 2) * power x (pk w + 2).
Definition temp (lat z : R) : R := 1 / (rratio z * rratio z * (tau1 z - tau2 z * inner (rratio z * cos lat))).
Definition pres (lat z : R) : R := p0 w * exp (- gr w / rd w * (int_tau1 z - int_tau2 z * inner (rratio z * cos lat))).

(** the jet, 182-192; [None] where the square root is of a negative number *)
Definition inner_u (x : R) : R := power x (pk w - 1) - power x (pk w + 1).
Definition big_u (lat z : R) : R := gr w / aref * pk w * int_tau2 z * inner_u (rratio z * cos lat) * temp lat z.
Definition rcoslat (lat z : R) : R := if deep then (z + aref) * cos lat else aref * cos lat.
Definition disc (lat z : R) : R := omegaref * rcoslat lat z * (omegaref * rcoslat lat z) + rcoslat lat z * big_u lat z.
Definition jet (lat z : R) : option R := if Rlt_dec (disc lat z) 0 then None else Some (- (omegaref * rcoslat lat z) + sqrt (disc lat z)).

(** the perturbation of the zonal wind, 378-405 *)
Definition taper (z : R) : R :=
  if Rlt_dec z (pertz w) then 1 - 3 * (z * z) / (pertz w * pertz w) + 2 * (z * z * z) / (pertz w * pertz w * pertz w) else 0.
Definition circle (lon lat : R) : R :=
  1 / pertexpr w * acos (sin (pertlat w) * sin lat + cos (pertlat w) * cos lat * cos (lon - pertlon w)).
Definition bump (s z : R) : R := if Rlt_dec s 1 then pertup w * taper z * exp (- (s * s)) else 0.
Definition zonal (lon lat z : R) : option R := option_map (fun u => u + bump (circle lon lat) z) (jet lat z).

(** density, humidity, temperature and virtual potential temperature for moist = 1,
    222-247 *)
Definition rho (lat z : R) : R := pres lat z / (rd w * temp lat z).
Definition humid (lat z : R) : R :=
  let eta := pres lat z / p0 w in
  if Rlt_dec (qtr w) eta
  then q0 w * exp (- (lat / qlat w * (lat / qlat w) * (lat / qlat w * (lat / qlat w)))) * exp (- ((eta - 1) * p0 w / qp w * ((eta - 1) * p0 w / qp w)))
  else qs w.
Definition dry_temp (lat z : R) : R := temp lat z / (1 + mvap w * humid lat z).
Definition theta_v (lat z : R) : R := dry_temp lat z * (1 + m61 w * humid lat z) * Rpower (p0 w / pres lat z) (rd w / cp w).
End Sample.
