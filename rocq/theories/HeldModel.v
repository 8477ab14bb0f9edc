(** * Held-Suarez forcing
    double is R; log, exp and pow are ln, exp and Rpower.  A column is the data
    of one horizontal node; the loops over patches and nodes apply the same map
    to every interior column (HeldSuarezPhysics.cpp:85-86, 109-110). *)
From Coq Require Import Reals.
From Verif Require Import PhysModel.
Local Open Scope R_scope.

(** the parameters, HeldSuarezPhysics.cpp:26-47 *)
Definition sigma_b : R := 7 / 10.
Definition k_f : R := 1 / 86400.
Definition k_a : R := 1 / 40 / 86400.
Definition k_s : R := 1 / 4 / 86400.
Definition delta_ty : R := 60.
Definition delta_theta : R := 10.
Definition t_min : R := 200.
Definition t_max : R := 315.

(** dBoundaryScale, HeldSuarezPhysics.cpp:127-132 (and 160-166, 233-239) *)
Definition boundary (s : R) : R :=
  let b := (s - sigma_b) / (1 - sigma_b) in if Rlt_dec b 0 then 0 else b.
(** dKT, HeldSuarezPhysics.cpp:176-180 (and 249-253) *)
Definition k_t (b lat : R) : R := k_a + (k_s - k_a) * b * (cos lat * cos lat * cos lat * cos lat).
(** dTeq, HeldSuarezPhysics.cpp:183-193 (and 256-266) *)
Definition t_eq (c : constants) (p lat : R) : R :=
  let t := (t_max - delta_ty * sin lat * sin lat - delta_theta * ln (p / p0 c) * cos lat * cos lat)
           * Rpower (p / p0 c) (kappa c) in
  if Rlt_dec t t_min then t_min else t.

(** the velocity update of one level, HeldSuarezPhysics.cpp:120-138; [ps] is
    dSurfacePressure, [r] and [t] the density and thermodynamic variable *)
Definition friction (c : constants) (dt ps r t u : R) : R :=
  u / (1 + k_f * boundary (pressure_from_rhotheta c (r * t) / ps) * dt).
(** dT, HeldSuarezPhysics.cpp:169-170 (and 242-243) *)
Definition temperature (c : constants) (r t : R) : R := pressure_from_rhotheta c t / (r * gas c).
(** dDH and dH, HeldSuarezPhysics.cpp:204-207 (and 277-280) *)
Definition d_h (c : constants) (kt te tm : R) : R := - kt / gamma c * (1 + (gamma c - 1) * te / tm).
Definition h_rate (c : constants) (kt te tm : R) : R := - kt / gamma c * (1 - te / tm).
(** the update of the thermodynamic variable, HeldSuarezPhysics.cpp:153-210
    (and 226-283) *)
Definition heat (c : constants) (dt ps lat r t : R) : R :=
  let p := pressure_from_rhotheta c t in
  let kt := k_t (boundary (p / ps)) lat in
  let te := t_eq c p lat in
  let tm := temperature c r t in
  t * (1 + dt / (1 - dt * d_h c kt te tm) * h_rate c kt te tm).

(** one column: U, V, the thermodynamic variable and density on levels, W,
    thermodynamic variable and density on interfaces *)
Record hcolumn := HColumn {
  nU : nat -> R; nV : nat -> R; nT : nat -> R; nR : nat -> R;
  eT : nat -> R; eR : nat -> R; eW : nat -> R }.
(** InterpolateREdgeToNode and InterpolateNodeToREdge on the column,
    HeldSuarezPhysics.cpp:101-106, are the parameters [e2n] and [n2e] *)
Definition staggered (stag : bool) (e2n n2e : (nat -> R) -> nat -> R) (x : hcolumn) : hcolumn :=
  if stag then HColumn (nU x) (nV x) (e2n (eT x)) (nR x) (eT x) (n2e (nR x)) (eW x) else x.
(** a loop k = 0 .. n-1 writing entry k *)
Definition upto (n : nat) (f old : nat -> R) (k : nat) : R := if Nat.ltb k n then f k else old k.
(** Perform on one column with [n] levels, HeldSuarezPhysics.cpp:101-286; [stag]
    says that the thermodynamic variable lives on interfaces *)
Definition held (c : constants) (n : nat) (stag : bool) (e2n n2e : (nat -> R) -> nat -> R) (dt lat : R) (x0 : hcolumn) : hcolumn :=
  let x := staggered stag e2n n2e x0 in
  let ps := pressure_from_rhotheta c (eR x 0%nat * eT x 0%nat) in
  HColumn
    (upto n (fun k => friction c dt ps (nR x k) (nT x k) (nU x k)) (nU x))
    (upto n (fun k => friction c dt ps (nR x k) (nT x k) (nV x k)) (nV x))
    (if stag then nT x else upto n (fun k => heat c dt ps lat (nR x k) (nT x k)) (nT x))
    (nR x)
    (if stag then upto (S n) (fun k => heat c dt ps lat (eR x k) (eT x k)) (eT x) else eT x)
    (eR x) (eW x).
