(** * Balances of a vortex *)
From Coq Require Import Reals.
Local Open Scope R_scope.

(** dp/dz = - rho g *)
Definition floats (g : R) (p rho : R -> R) (z : R) : Prop := derivable_pt_lim p z (- rho z * g).
(** the wind [v] around a centre at distance [r] is held by the pressure gradient:
    v^2 / r + f v = (1 / rho) dp/dr *)
Definition gradient_wind (f v rho : R) (p : R -> R) (r : R) : Prop :=
  exists D, derivable_pt_lim p r D /\ v * v / r + f * v = D / rho.
(** the scalar product of the directions from the centre of the sphere to two places *)
Definition dot (lon1 lat1 lon2 lat2 : R) : R :=
  (cos lat1 * cos lon1) * (cos lat2 * cos lon2) + (cos lat1 * sin lon1) * (cos lat2 * sin lon2) + sin lat1 * sin lat2.
(** the Coriolis parameter at a latitude, for a rotation rate *)
Definition coriolis_at (om lat : R) : R := 2 * om * sin lat.
