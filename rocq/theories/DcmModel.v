(** * The physics of one column
    DCMIP2016_PHYSICS, test/dcmip2016/interface/dcmip_physics_z_v1.f90, which
    DCMIPPhysics::Perform calls.  REAL(8) is R; Fortran levels 1..nz are 0..nz-1 and
    interfaces 1..nz+1 are 0..nz; x**y for x > 0 is Rpower.  (z and zi are declared with
    nz entries, 80-82; zi is read at nz+1, 243, which the caller has.) *)
From Coq Require Import Reals ZArith.
Local Open Scope R_scope.

(** constants, 100-136 *)
Definition gravit : R := 980616 / 100000.
Definition rair : R := 287.
Definition cpair : R := 10045 / 10.
Definition latvap : R := 2500000.
Definition rh2o : R := 4615 / 10.
Definition epsilo : R := rair / rh2o.
Definition zvir : R := rh2o / rair - 1.
Definition c_heat : R := 11 / 10000.
Definition sst_tc : R := 30215 / 100.
Definition t_0 : R := 27316 / 100.
Definition e_0 : R := 61078 / 100.
Definition rhow : R := 1000.
Definition cd0 : R := 7 / 10000.
Definition cd1 : R := 65 / 1000000.
Definition cm : R := 2 / 1000.
Definition v20 : R := 20.
Definition p_0 : R := 100000.
Definition pbltop : R := 85000.
Definition zpbltop : R := 1000.
Definition pblconst : R := 10000.
Definition karman : R := 4 / 10.

(** the column: what is given, and what changes *)
Record fixed := Fixed { nz : nat; rho : nat -> R; zm : nat -> R; zi : nat -> R; dtime : R }.
Record air := Air { u : nat -> R; v : nat -> R; p : nat -> R; qv : nat -> R; qc : nat -> R; qr : nat -> R; rhom : nat -> R; qsv : nat -> R; t : nat -> R }.
Definition put (f : nat -> R) (k : nat) (x : R) : nat -> R := fun j => if Nat.eqb j k then x else f j.

Section Physics.
Context (F : fixed).
(** moist density, specific humidity, temperature, 230-234 *)
Definition prepare (u v p qv qc qr : nat -> R) : air :=
  let rm k := rho F k * (1 + qv k) in
  Air u v p qv qc qr rm (fun k => qv k * rho F k / rm k) (fun k => p k / (rm k * rair * (1 + zvir * qv k))).

(** large-scale precipitation, 239-256.  One level: temperature, specific humidity,
    mixing ratio, moist density, pressure, and the amount condensed *)
Definition saturation (p t : R) : R := epsilo * e_0 / p * exp (- (latvap / rh2o) * (1 / t - 1 / t_0)).
Definition condense (rho p t q rm qv : R) : R * R * R * R * R * R :=
  let qsat := saturation p t in
  if Rlt_dec qsat q then
    let d := (q - qsat) / (1 + latvap / cpair * epsilo * latvap * qsat / (rair * (t * t))) in
    let t' := t + latvap / cpair * d in
    let q' := q - d in
    let qv' := q' / (1 - q') in
    let rm' := rho / (1 - q') in
    (t', q', qv', rm', rm' * rair * t' * (1 + zvir * qv'), d)
  else (t, q, qv, rm, p, 0).
(** the loop over the first [n] levels: state and precl *)
Fixpoint precipitate (s : air) (n : nat) : air * R :=
  match n with
  | O => (s, 0)
  | S k =>
      let '(s, rain) := precipitate s k in
      let '(t', q', qv', rm', p', d) := condense (rho F k) (p s k) (t s k) (qsv s k) (rhom s k) (qv s k) in
      (Air (u s) (v s) (put (p s) k p') (put (qv s) k qv') (qc s) (qr s) (put (rhom s) k rm') (put (qsv s) k q') (put (t s) k t'),
       rain + d * rhom s k * (zi F (S k) - zi F k) / (dtime F * rhow))
  end.

(** Kessler branch, 261-287: potential temperature, the routine, and back *)
Definition poisson (rm theta qv : R) : R := p_0 * Rpower (rm * rair * (theta * (1 + zvir * qv)) / p_0) (cpair / (cpair - rair)).
Definition to_theta (s : air) (k : nat) : R := t s k / Rpower (p s k / p_0) (rair / cpair).
Definition from_theta (s : air) (theta qv' qc' qr' : nat -> R) : air :=
  let q k := qv' k / (1 + qv' k) in
  let rm k := rho F k / (1 - q k) in
  let p' k := poisson (rm k) (theta k) (qv' k) in
  Air (u s) (v s) p' qv' qc' qr' rm q (fun k => p' k / (rm k * rair * (1 + zvir * qv' k))).

(** drag and mixing coefficients, 304-354, at the interfaces 0..nz *)
Definition speed (s : air) : R := sqrt (u s 0 * u s 0 + v s 0 * v s 0).
Definition drag (w : R) : R := if Rlt_dec w v20 then cd0 + cd1 * w else cm.
Definition mixing_rj (s : air) (c : R) (k : nat) : R :=
  if (Nat.eqb k 0 || Nat.eqb k (nz F))%bool then 0
  else let pi := 1 / 2 * (p s (k - 1)%nat + p s k) in
       if Rle_dec pbltop pi then c * speed s * zm F 0
       else c * speed s * zm F 0 * exp (- ((pbltop - pi) * (pbltop - pi)) / (pblconst * pblconst)).
Definition mixing_bryan (s : air) (c : R) (k : nat) : R :=
  if (Nat.eqb k 0 || Nat.eqb k (nz F))%bool then 0
  else if Rle_dec (zi F k) zpbltop
       then karman * sqrt c * speed s * zi F k * (1 - zi F k / zpbltop) * (1 - zi F k / zpbltop)
       else 0.
Definition mixing (pbl : Z) (s : air) (c : R) : option (nat -> R) :=
  if (pbl =? 0)%Z then Some (mixing_rj s c) else if (pbl =? 1)%Z then Some (mixing_bryan s c) else None.

(** hydrostatic surface pressure, 361-364 *)
Fixpoint surface_pressure (s : air) (n : nat) : R :=
  match n with O => 0 | S k => surface_pressure s k + gravit * rhom s k * (zi F (S k) - zi F k) end.
(** surface fluxes, 365-374; za = z(1), 191; [w] and [cd] are wind and Cd *)
Definition fluxes (s : air) (w cd tsurf : R) : air :=
  let qsats := saturation (surface_pressure s (nz F)) tsurf in
  let za := zm F 0 in
  let u1 := u s 0 / (1 + dtime F * cd * w / za) in
  let v1 := v s 0 / (1 + dtime F * cd * w / za) in
  let q1 := (qsv s 0 + c_heat * w * qsats * dtime F / za) / (1 + c_heat * w * dtime F / za) in
  let t1 := (t s 0 + c_heat * w * tsurf * dtime F / za) / (1 + c_heat * w * dtime F / za) in
  let qv1 := q1 / (1 - q1) in
  let rm1 := rho F 0 / (1 - q1) in
  Air (put (u s) 0 u1) (put (v s) 0 v1) (put (p s) 0 (t1 * rm1 * rair * (1 + zvir * qv1))) (put (qv s) 0 qv1) (qc s) (qr s) (put (rhom s) 0 rm1) (put (qsv s) 0 q1) (put (t s) 0 t1).

(** the boundary layer, 379-444: coefficients of one level for mixing coefficients [K] *)
Definition coef_a (rm K : nat -> R) (k : nat) : R :=
  if Nat.eqb k 0 then 0 * K k
  else 1 / 2 * (rm (k - 1)%nat + rm k) / rm k * dtime F / (zm F k - zm F (k - 1)%nat) / (zi F (S k) - zi F k) * K k.
Definition coef_c (rm K : nat -> R) (k : nat) : R :=
  if Nat.eqb (S k) (nz F) then 0 * K (S k)
  else 1 / 2 * (rm k + rm (S k)) / rm k * dtime F / (zm F (S k) - zm F k) / (zi F (S k) - zi F k) * K (S k).
Definition coef_b (rm K : nat -> R) (k : nat) : R := 1 + coef_a rm K k + coef_c rm K k.
(** CE and CF of a level, 405-422 *)
Fixpoint sweep (rm K x : nat -> R) (k : nat) : R * R :=
  match k with
  | O => (coef_c rm K 0 / coef_b rm K 0, x 0%nat / coef_b rm K 0)
  | S j => let '(e, f) := sweep rm K x j in
           let d := coef_b rm K k - coef_a rm K k * e in
           (coef_c rm K k / d, (x k + coef_a rm K k * f) / d)
  end.
(** the value [m] levels below the top, 425-435 *)
Fixpoint descend (rm K x : nat -> R) (m : nat) : R :=
  match m with
  | O => snd (sweep rm K x (nz F - 1))
  | S j => let k := (nz F - 1 - m)%nat in fst (sweep rm K x k) * descend rm K x j + snd (sweep rm K x k)
  end.
Definition mix (rm K x : nat -> R) (k : nat) : R := descend rm K x (nz F - 1 - k).
Definition boundary_layer (s : air) (km ke : nat -> R) : air :=
  let theta k := t s k * Rpower (p_0 / p s k) (rair / cpair) in
  let theta' := mix (rhom s) ke theta in
  let q' := mix (rhom s) ke (qsv s) in
  let qv' k := q' k / (1 - q' k) in
  let rm' k := rho F k / (1 - q' k) in
  Air (mix (rhom s) km (u s)) (mix (rhom s) km (v s)) (fun k => poisson (rm' k) (theta' k) (qv' k)) qv' (qc s) (qr s) rm' q' (t s).

(** sea surface temperature, 194-220; [tsurf1] is that of the baroclinic wave.
    [None]: the program stops. *)
Definition sea (tsurf1 : R) (test : Z) : option R :=
  if (test =? 1)%Z then Some tsurf1 else if (test =? 2)%Z then Some sst_tc else if (test =? 3)%Z then Some 0 else None.
(** the routine, 54-448; [kessler] is the call of KESSLER: theta, qv, qc, qr, Exner
    function to theta, qv, qc, qr and precl *)
Context (kessler : (nat -> R) -> (nat -> R) -> (nat -> R) -> (nat -> R) -> (nat -> R) -> (nat -> R) * (nat -> R) * (nat -> R) * (nat -> R) * R).
Definition physics (test pbl prec : Z) (tsurf1 : R) (u0 v0 p0 qv0 qc0 qr0 : nat -> R) : option (air * R) :=
  match sea tsurf1 test with
  | None => None
  | Some ts =>
      let s := prepare u0 v0 p0 qv0 qc0 qr0 in
      let r := if (prec =? 1)%Z then Some (precipitate s (nz F))
               else if (prec =? 0)%Z then
                 let '(th, qv', qc', qr', rain) := kessler (to_theta s) (qv s) (qc s) (qr s) (fun k => Rpower (p s k / p_0) (rair / cpair)) in
                 Some (from_theta s th qv' qc' qr', rain)
               else None in
      match r with
      | None => None
      | Some (s, rain) =>
          if (test =? 3)%Z then Some (s, rain)
          else let w := speed s in let cd := drag w in
               match mixing pbl s cd, mixing pbl s c_heat with
               | Some km, Some ke => Some (boundary_layer (fluxes s w cd ts) km ke, rain)
               | _, _ => None
               end
      end
  end.
End Physics.
