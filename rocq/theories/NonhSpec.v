(** * Dry air in a column of elements
    Energy densities and derivatives of arrays, stated without the step. *)
From Coq Require Import ZArith Reals.
From Verif Require Import PhysSpec ShallowSpec.
Local Open Scope R_scope.
Local Notation z := Z.of_nat.

(** internal energy per volume of dry air, (c - r) rho T = (c - r) / r p, with gas
    constant r, heat capacity c and reference pressure p0, from x = rho theta *)
Definition internal (r c p0 x : R) : R := (c - r) / r * poisson r c p0 x.
(** 1/2 g^ij u_i u_j for a symmetric metric *)
Definition kinetic (g11 g12 g13 g22 g23 g33 u v w : R) : R :=
  1 / 2 * (g11 * (u * u) + g22 * (v * v) + g33 * (w * w)) + g12 * (u * v) + g13 * (u * w) + g23 * (v * w).
(** energy per volume: density times (kinetic energy + geopotential) + internal energy *)
Definition energy3 (k phi rho e : R) : R := rho * (k + phi) + e.

(** the nodes of the interior of a patch *)
Definition interior (n : nat) (h : Z) (nA nB : nat) (x y : Z) : Prop :=
  (h <= x < h + z (nA * n) /\ h <= y < h + z (nB * n))%Z.
