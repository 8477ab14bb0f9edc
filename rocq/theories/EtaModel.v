(** * Initial states given on pressure levels, found by Newton iteration
    double is R; pow, log, exp and sqrt are those of R, pow and log used with a positive
    argument only.  eta is pressure over the reference pressure. *)
From Coq Require Import Reals Arith.
From Verif Require Import PhysModel InitModel BalModel.
Local Open Scope R_scope.

(** ** EtaFromRLL, BaroclinicWaveJWTest.cpp:297-345, Baroclinic3DCartesianTest.cpp:327-373,
    Baroclinic3DCartesianRidgeTest.cpp:350-396, ShearJetMtnWave2DCartesianTest.cpp:427-474:
    the same text with other numbers.  [calc] is CalculateGeopotentialTemperature at the
    point; the outputs are the values of the last call. *)
Inductive found := Converged (eta phi t : R) | TooMany | Invalid | Plain (eta : R).
Definition newton (calc : R -> R * R) (r g z eta : R) : R :=
  let (phi, t) := calc eta in eta - (- g * z + phi) / (- r / eta * t).
Fixpoint search (calc : R -> R * R) (r g z conv : R) (left i : nat) (eta : R) : found + nat * R :=
  match left with
  | O => inr (i, eta)
  | S k => let e := newton calc r g z eta in
           if Rlt_dec (Rabs (eta - e)) conv then inl (Converged e (fst (calc eta)) (snd (calc eta)))
           else search calc r g z conv k (S i) e
  end.
Definition eta_from (most : nat) (init conv : R) (calc : R -> R * R) (r g z : R) : found :=
  match search calc r g z conv most 0 init with
  | inl f => f
  | inr (i, eta) => if Nat.eqb i most then TooMany
                    else if Rlt_dec 1 eta then Invalid else if Rlt_dec eta 0 then Invalid else Plain eta
  end.

(** ** BaroclinicWaveJWTest.cpp: the parameters of lines 118-127 *)
Record jw := Jw { eta0 : R; etat : R; jt0 : R; jdt : R; jlapse : R; ju0 : R }.
(** dAuxEta and pow(cos(dAuxEta), 1.5) *)
Definition jw_aux (q : jw) (eta : R) : R := 1 / 2 * PI * (eta - eta0 q).
Definition jw_cos (q : jw) (eta : R) : R := Rpower (cos (jw_aux q eta)) (3 / 2).
(** dRefProfile1 and dRefProfile2, 192-198 and 244-250 *)
Definition jw_p1 (q : jw) (eta lat : R) : R :=
  let s2 := sin lat * sin lat in let s6 := sin lat * (sin lat * (sin lat * (sin lat * s2))) in
  let c2 := cos lat * cos lat in
  ju0 q * jw_cos q eta * (- (2) * s6 * (c2 + 1 / 3) + 10 / 63).
Definition jw_p2 (c : constants) (lat : R) : R :=
  let s2 := sin lat * sin lat in let c3 := cos lat * (cos lat * cos lat) in
  earth_radius c * omega c * (8 / 5 * c3 * (s2 + 2 / 3) - 1 / 4 * PI).
(** EvaluateTopography, 170-205 *)
Definition jw_topography (c : constants) (q : jw) (lat : R) : R :=
  ju0 q * Rpower (cos (1 / 2 * PI * (1 - eta0 q))) (3 / 2) * (jw_p1 q 1 lat + jw_p2 c lat) / g c.
(** CalculateGeopotentialTemperature, 210-290 *)
Definition jw_avg_t (c : constants) (q : jw) (eta : R) : R :=
  let t := jt0 q * Rpower eta (gas c * jlapse q / g c) in
  if Rlt_dec eta (etat q) then t + jdt q * Rpower (etat q - eta) 5 else t.
Definition jw_temp (c : constants) (q : jw) (eta lat : R) : R :=
  jw_avg_t c q eta
  + 3 / 4 * eta * PI * ju0 q / gas c * sin (jw_aux q eta) * sqrt (cos (jw_aux q eta)) * (2 * jw_p1 q eta lat + jw_p2 c lat).
Definition jw_strato (c : constants) (q : jw) (eta : R) : R :=
  let e2 := eta * eta in let e3 := eta * e2 in let e4 := eta * e3 in let e5 := eta * e4 in
  let t := etat q in let t2 := t * t in let t3 := t * t2 in let t4 := t * t3 in let t5 := t * t4 in
  gas c * jdt q * ((ln (eta / t) + 137 / 60) * t5 - 5 * t4 * eta + 5 * t3 * e2 - 10 / 3 * t2 * e3 + 5 / 4 * t * e4 - 1 / 5 * e5).
Definition jw_avg_phi (c : constants) (q : jw) (eta : R) : R :=
  let p := jt0 q * g c / jlapse q * (1 - Rpower eta (gas c * jlapse q / g c)) in
  if Rlt_dec eta (etat q) then p - jw_strato c q eta else p.
Definition jw_phi (c : constants) (q : jw) (eta lat : R) : R :=
  jw_avg_phi c q eta + ju0 q * jw_cos q eta * (jw_p1 q eta lat + jw_p2 c lat).
Definition jw_calc (c : constants) (q : jw) (lat eta : R) : R * R := (jw_phi c q eta lat, jw_temp c q eta lat).
(** EvaluateReferenceState, 351-383: components 1 and 3 are left as they were *)
Definition jw_point (c : constants) (q : jw) (old : state) (lat eta t : R) : state :=
  let s := from_pressure c (ju0 q * Rpower (cos (1 / 2 * PI * (eta - eta0 q))) (3 / 2) * sin (2 * lat) * sin (2 * lat)) (p0 c * eta) t in
  State (su s) (sv old) (stheta s) (sw old) (srho s).
Definition jw_state (c : constants) (q : jw) (old : state) (z lat : R) : option state :=
  match eta_from 25 (1 / 10000000) (1 / 10000000000000) (jw_calc c q lat) (gas c) (g c) z with
  | Converged eta _ t => Some (jw_point c q old lat eta t)
  | _ => None
  end.

(** ** Baroclinic3DCartesianTest.cpp:270-324 (beta over the radius) and
    Baroclinic3DCartesianRidgeTest.cpp:292-346 (beta over the radius plus the height) *)
Record channel := Channel { cb : R; cu0 : R; clapse : R; ct0 : R; reflat : R; ymin : R; ymax : R }.
Definition chan_ly (q : channel) : R := ymax q - ymin q.
Definition chan_y0 (q : channel) : R := 1 / 2 * (ymax q - ymin q).
Definition chan_xy (c : constants) (q : channel) (beta y : R) : R :=
  let f0 := 2 * omega c * sin (reflat q) in let ly := chan_ly q in let y0 := chan_y0 q in
  1 / 2 * cu0 q *
    ((f0 - beta * y0) * (y - y0 - y0 / PI * sin (2 * PI * y / ly))
     + 1 / 2 * beta * (y * y - ly * y / PI * sin (2 * PI * y / ly) - 1 / 2 * ly * ly / (PI * PI) * cos (2 * PI * y / ly)
                       - ly * ly / 3 - 1 / 2 * ly * ly / (PI * PI))).
Definition chan_decay (q : channel) (eta : R) : R := exp (- (ln eta / cb q) * (ln eta / cb q)).
Definition chan_phi (c : constants) (q : channel) (beta eta y : R) : R :=
  ct0 q * g c / clapse q * (1 - Rpower eta (gas c * clapse q / g c)) + chan_xy c q beta y * ln eta * chan_decay q eta.
Definition chan_temp (c : constants) (q : channel) (beta eta y : R) : R :=
  ct0 q * Rpower eta (gas c * clapse q / g c)
  + chan_xy c q beta y / gas c * (2 / (cb q * cb q) * ln eta * ln eta - 1) * chan_decay q eta.
Definition chan_beta (c : constants) (q : channel) : R := 2 * omega c * cos (reflat q) / earth_radius c.
Definition ridge_beta (c : constants) (q : channel) (z : R) : R := 2 * omega c * cos (reflat q) / (earth_radius c + z).
(** EvaluateReferenceState, Baroclinic3DCartesianTest.cpp:380-417 *)
Definition chan_u (q : channel) (eta y : R) : R :=
  - cu0 q * sin (PI * y / chan_ly q) * sin (PI * y / chan_ly q) * ln eta * chan_decay q eta.
Definition chan_point (c : constants) (q : channel) (y eta t : R) : state :=
  from_pressure c (chan_u q eta y) (p0 c * eta) t.
(** EvaluateRayleighStrength, Baroclinic3DCartesianTest.cpp:213-247: x is compared with
    the limits of y *)
Definition chan_strength (s depth width ylo yhi top x y z : R) : R :=
  let d := if Rlt_dec (top - depth) z then 1 / 2 * s * (1 + cos (PI * ((top - z) / depth))) else 0 in
  let r := if Rlt_dec (yhi - width) x then 1 / 2 * s * (1 + cos (PI * ((yhi - y) / width))) else 0 in
  let l := if Rlt_dec x (ylo + width) then 1 / 2 * s * (1 + cos (PI * ((y - ylo) / width))) else 0 in
  nu_choose d r l.

(** ** ShearJetMtnWave2DCartesianTest.cpp:362-420: three layers by height; the values at
    the two levels between them are those found by the constructor, 200-219 *)
Record shear := Shear { sb : R; suj : R; su0 : R; st0 : R; slapse : R; sstrato : R; height1 : R; mixed : R;
                        temp1 : R; level1 : R; level2 : R; phi1 : R; phi2 : R }.
Definition shear_calc (c : constants) (q : shear) (z eta : R) : R * R :=
  if Rle_dec z (height1 q) then
    (st0 q * g c / slapse q * (1 - Rpower eta (gas c * slapse q / g c)), st0 q * Rpower eta (gas c * slapse q / g c))
  else if Rle_dec z (height1 q + mixed q) then
    (- gas c * temp1 q * ln eta + gas c * temp1 q * ln (level1 q) + phi1 q, temp1 q)
  else
    (temp1 q * g c / sstrato q * (1 - Rpower (eta / level2 q) (gas c * sstrato q / g c)) + phi2 q,
     temp1 q * Rpower (eta / level2 q) (gas c * sstrato q / g c)).
(** EvaluateReferenceState, 480-514 *)
Definition shear_point (c : constants) (q : shear) (eta t : R) : state :=
  from_pressure c (- suj q * (1 / 2) * ln eta * exp (- (ln eta / sb q) * (ln eta / sb q)) + su0 q) (p0 c * eta) t.
Definition shear_state (c : constants) (q : shear) (z : R) : option state :=
  match eta_from 200 (1 / 100000) (1 / 10000000000000) (shear_calc c q z) (gas c) (g c) z with
  | Converged eta _ t => Some (shear_point c q eta t)
  | _ => None
  end.
