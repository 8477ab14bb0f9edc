(** * Balances in pressure coordinates *)
From Coq Require Import Reals.
Local Open Scope R_scope.

(** hydrostatic balance of the geopotential [phi] and temperature [t] in eta = p / p0:
    d phi / d ln p = - R T *)
Definition hydrostatic_eta (r : R) (phi t : R -> R) (eta : R) : Prop :=
  derivable_pt_lim phi eta (- r * t eta / eta).
(** the wind [u] on a plane with Coriolis parameter [f] balances the geopotential on a
    level of constant pressure *)
Definition geostrophic (f u : R) (phi : R -> R) (y : R) : Prop :=
  exists D, derivable_pt_lim phi y D /\ f * u + D = 0.
(** the same on the sphere, with the curvature term *)
Definition gradient_wind_eta (a om u : R) (phi : R -> R) (lat : R) : Prop :=
  exists D, derivable_pt_lim phi lat D /\ u * u * tan lat / a + 2 * om * sin lat * u + D / a = 0.
(** Newton's method for phi(e) = g z, the derivative of phi being - r t / e *)
Definition newton_sequence (phi t : R -> R) (r g z init : R) (e : nat -> R) : Prop :=
  e O = init /\ forall n, e (S n) = e n - (phi (e n) - g * z) / (- (r * t (e n) / e n)).
(** the mean of [f] from [a] to [b] is [m] *)
Definition mean_is (f : R -> R) (a b m : R) : Prop :=
  exists P, (forall y, derivable_pt_lim P y (f y)) /\ P b - P a = m * (b - a).
