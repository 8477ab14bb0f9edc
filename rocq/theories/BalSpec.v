(** * Steady zonal flow on a rotating sphere *)
From Coq Require Import Reals.
Local Open Scope R_scope.

(** gradient wind balance at latitude [lat] of the zonal wind [u] with the pressure
    [p] as a function of latitude at one height: u^2 tan(lat)/a + 2 om sin(lat) u
    + (1/(rho a)) dp/dlat = 0 *)
Definition gradient_wind (a om u rho : R) (p : R -> R) (lat : R) : Prop :=
  exists D, derivable_pt_lim p lat D /\ u * u * tan lat / a + 2 * om * sin lat * u + D / (rho * a) = 0.
