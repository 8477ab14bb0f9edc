(** * Water in a column *)
From Coq Require Import Reals Arith.
From Verif Require Import ColSpec.
Local Open Scope R_scope.

(** mass of dry air per area in a layer: the layer of a level reaches to the
    next level; the top one is half as deep *)
Definition layer (nz : nat) (rho z : nat -> R) (k : nat) : R :=
  if Nat.ltb (S k) nz then rho k * (z (S k) - z k) else rho k * (1 / 2 * (z k - z (k - 1)%nat)).
(** water per area for mixing ratios v, c, r *)
Definition water (nz : nat) (rho z v c r : nat -> R) : R := sum (fun k => layer nz rho z k * (v k + c k + r k)) nz.
(** mass of the tracers per area *)
Definition tracer_mass (nz : nat) (dz a b c : nat -> R) : R := sum (fun k => dz k * (a k + b k + c k)) nz.
