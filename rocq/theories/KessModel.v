(** * Kessler microphysics and its wrapper (test/dcmip2016)
    double and single precision REAL are R; Fortran levels 1..nz are 0..nz-1,
    with nz >= 2; x**y is 0 at x = 0 and Rpower at x > 0. *)
From Coq Require Import Reals ZArith List.
From Verif Require Import PhysModel.
Import ListNotations.
Local Open Scope R_scope.

Definition fpow (x y : R) : R := if Req_EM_T x 0 then 0 else Rpower x y.
(** dim(a,b) *)
Definition dim (a b : R) : R := Rmax (a - b) 0.
(** ceiling(x) *)
Definition ceil (x : R) : Z := (- Int_part (- x))%Z.

(** the constants, kessler.f90:104-108 *)
Definition f2x : R := 1727 / 100.
Definition f5 : R := 2373 / 10 * f2x * 2500000 / 1003.
Definition xk : R := 2875 / 10000.
Definition psl : R := 1000.
Definition rhoqr : R := 1000.

Section Column.
  (** density, Exner function, heights; number of levels *)
  Context (nz : nat) (rho pk z : nat -> R).
  (** r, rhalf, pc, kessler.f90:111-113 *)
  Definition kr (k : nat) : R := 1 / 1000 * rho k.
  Definition rhalf (k : nat) : R := sqrt (rho 0%nat / rho k).
  Definition pc (k : nat) : R := 38 / 10 / (fpow (pk k) (1 / xk) * psl).
  (** velqr, kessler.f90:116 and 175 *)
  Definition velqr (qr : nat -> R) (k : nat) : R := 3634 / 100 * fpow (qr k * kr k) (1364 / 10000) * rhalf k.
  (** dt_max, kessler.f90:121-126 *)
  Fixpoint dt_max (dt : R) (vel : nat -> R) (n : nat) : R :=
    match n with
    | O => dt
    | S k => let m := dt_max dt vel k in
             if Req_EM_T (vel k) 0 then m else Rmin m (8 / 10 * (z (S k) - z k) / vel k)
    end.
  (** rainsplit and dt0, kessler.f90:129-130 *)
  Definition rainsplit (dt : R) (vel : nat -> R) : Z := ceil (dt / dt_max dt vel (nz - 1)).

  Record moist := Moist { th : nat -> R; qv : nat -> R; qc : nat -> R; qr : nat -> R }.
  (** sed, kessler.f90:141-144 *)
  Definition sed (dt0 : R) (vel q : nat -> R) (k : nat) : R :=
    if Nat.ltb (S k) nz
    then dt0 * (kr (S k) * q (S k) * vel (S k) - kr k * q k * vel k) / (kr k * (z (S k) - z k))
    else - dt0 * q k * vel k / (1 / 2 * (z k - z (k - 1)%nat)).
  (** qrprod, kessler.f90:150 *)
  Definition qrprod (dt0 c r : R) : R :=
    c - (c - dt0 * Rmax (1 / 1000 * (c - 1 / 1000)) 0) / (1 + dt0 * (22 / 10) * fpow r (875 / 1000)).
  (** qvs, prod, kessler.f90:155-157 *)
  Definition qvs (k : nat) (t : R) : R := pc k * exp (f2x * (pk k * t - 273) / (pk k * t - 36)).
  Definition prod (k : nat) (t v : R) : R := (v - qvs k t) / (1 + qvs k t * f5 / ((pk k * t - 36) * (pk k * t - 36))).
  (** ern, kessler.f90:160-163, with the updated cloud and rain *)
  Definition ern (dt0 : R) (k : nat) (t v c r : R) : R :=
    Rmin (Rmin
      (dt0 * (((16 / 10 + 1249 / 10 * fpow (kr k * r) (2046 / 10000)) * fpow (kr k * r) (525 / 1000))
              / (2550000 * pc k / (38 / 10 * qvs k t) + 540000)) * (dim (qvs k t) v / (kr k * qvs k t)))
      (Rmax (- prod k t v - c) 0)) r.
  (** the adjustment of one level, kessler.f90:150-169: (theta, qv, qc, qr) *)
  Definition adjust (dt0 : R) (k : nat) (s t v c r : R) : R * R * R * R :=
    let p := qrprod dt0 c r in
    let c1 := Rmax (c - p) 0 in
    let r1 := Rmax (r + p + s) 0 in
    let m := Rmax (prod k t v) (- c1) in
    let e := ern dt0 k t v c1 r1 in
    (t + 2500000 / (1003 * pk k) * (m - e), Rmax (v - m + e) 0, c1 + m, r1 - e).
  (** one subcycle without the velocities, kessler.f90:141-170 *)
  Definition subcycle (dt0 : R) (vel : nat -> R) (x : moist) : moist :=
    let a := fun k => if Nat.ltb k nz then adjust dt0 k (sed dt0 vel (qr x) k) (th x k) (qv x k) (qc x k) (qr x k)
                      else (th x k, qv x k, qc x k, qr x k) in
    Moist (fun k => fst (fst (fst (a k)))) (fun k => snd (fst (fst (a k)))) (fun k => snd (fst (a k))) (fun k => snd (a k)).
  (** the loop, kessler.f90:135-178: column, velocities, precl *)
  Definition cycle (dt0 : R) (last : bool) (s : moist * (nat -> R) * R) : moist * (nat -> R) * R :=
    let '(x, vel, p) := s in
    let p' := p + rho 0%nat * qr x 0%nat * vel 0%nat / rhoqr in
    let x' := subcycle dt0 vel x in
    (x', if last then vel else velqr (qr x'), p').
  Fixpoint cycles (dt0 : R) (n : nat) (s : moist * (nat -> R) * R) : moist * (nat -> R) * R :=
    match n with O => s | S m => cycles dt0 m (cycle dt0 (Nat.eqb m 0) s) end.
  (** KESSLER, kessler.f90:65-182: the column and precl *)
  Definition kessler (dt : R) (x : moist) : moist * R :=
    let vel := velqr (qr x) in
    let n := rainsplit dt vel in
    let '(y, _, p) := cycles (dt / IZR n) (Z.to_nat n) (x, vel, 0) in (y, p / IZR n).
End Column.

(** ** KesslerPhysics::Perform on one column, thermodynamic variable rho theta
    on levels (Defines.h:41), KesslerPhysics.cpp:154-281 *)
Record air := Air { aR : nat -> R; aT : nat -> R; w0 : nat -> R; w1 : nat -> R; w2 : nat -> R }.
(** the specific ratio with negative values set to zero, KesslerPhysics.cpp:189-204 *)
Definition clip (x : R) : R := if Rlt_dec x 0 then 0 else x.
(** m_dThetaVNode, dRhoD, KesslerPhysics.cpp:159-161, 175-179 *)
Definition theta_v (a : air) (k : nat) : R := aT a k / aR a k.
Definition rho_d (a : air) (k : nat) : R := aR a k - w0 a k - w1 a k - w2 a k.
(** m_dPk, KesslerPhysics.cpp:182-186, 216 *)
Definition exner_of (c : constants) (a : air) (k : nat) : R :=
  pressure_from_rhotheta c (aR a k * theta_v a k) / (aR a k * gas c) / theta_v a k.
(** the arguments of kessler_, KesslerPhysics.cpp:189-207 *)
Definition to_moist (a : air) : moist :=
  let v := fun k => clip (w0 a k / aR a k) in
  Moist (fun k => theta_v a k / (1 + 61 / 100 * v k)) v (fun k => clip (w1 a k / aR a k)) (fun k => clip (w2 a k / aR a k)).
(** the update of the state, KesslerPhysics.cpp:236-277, from the dry density
    and the result of the microphysics *)
Definition from_moist (rd : nat -> R) (y : moist) : air :=
  let rho := fun k => rd k / (1 - qv y k - qc y k - qr y k) in
  Air rho (fun k => rho k * th y k * (1 + 61 / 100 * qv y k)) (fun k => qv y k * rho k) (fun k => qc y k * rho k) (fun k => qr y k * rho k).
(** Perform on one column: new state and the precipitation added to
    UserData2D, KesslerPhysics.cpp:219-233 *)
Definition perform (c : constants) (nz : nat) (z : nat -> R) (dt : R) (a : air) : air * R :=
  let '(y, p) := kessler nz (rho_d a) (exner_of c a) z dt (to_moist a) in (from_moist (rho_d a) y, p * dt).

(** ** DCMIPPhysics::Perform on one column, rho theta on levels,
    DCMIPPhysics.cpp:240-387; the Fortran routine is any map of pressure and
    the three ratios, velocities are left out *)
Definition dcmip_in (c : constants) (a : air) : (nat -> R) * (nat -> R) * (nat -> R) * (nat -> R) :=
  (fun k => pressure_from_rhotheta c (aR a k * theta_v a k),
   fun k => clip (w0 a k / aR a k), fun k => clip (w1 a k / aR a k), fun k => clip (w2 a k / aR a k)).
Definition dcmip_out (c : constants) (rd p v q r : nat -> R) : air :=
  let rho := fun k => rd k / (1 - v k - q k - r k) in
  Air rho (fun k => p k / (rho k * gas c) * Rpower (p0 c / p k) (kappa c) * rho k)
    (fun k => v k * rho k) (fun k => q k * rho k) (fun k => r k * rho k).
