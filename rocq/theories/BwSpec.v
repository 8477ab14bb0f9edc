(** * Balances of a zonal flow on the rotating sphere *)
From Coq Require Import Reals.
Local Open Scope R_scope.

(** the forces along the radius: gravity [gr], and in the deep atmosphere the centrifugal
    and Coriolis force of the zonal wind [u] at the distance [r] from the centre *)
Definition radial_force (deep : bool) (gr om r lat u : R) : R :=
  if deep then - gr + u * u / r + 2 * om * u * cos lat else - gr.
(** 1/rho dp/dz = force along the radius *)
Definition radial_balance (force rho : R) (p : R -> R) (z : R) : Prop := derivable_pt_lim p z (rho * force).
(** 1/(rho r) dp/dlat = - u^2 tan lat / r - 2 om u sin lat *)
Definition meridional_balance (om r u rho : R) (p : R -> R) (lat : R) : Prop :=
  derivable_pt_lim p lat (- rho * r * (u * u * tan lat / r + 2 * om * u * sin lat)).
(** distance from the centre of a sphere of radius [a], and gravity by the inverse square
    of it; constant in the shallow atmosphere *)
Definition radius (deep : bool) (a z : R) : R := if deep then a + z else a.
Definition gravity (deep : bool) (g a z : R) : R := if deep then g * (a * a) / ((a + z) * (a + z)) else g.
