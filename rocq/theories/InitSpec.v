(** * Balance of an atmosphere at rest in the vertical; sponge layers *)
From Coq Require Import Reals.
Local Open Scope R_scope.

(** hydrostatic balance at height [z]: dp/dz = - rho g *)
Definition hydrostatic (g : R) (p rho : R -> R) (z : R) : Prop := derivable_pt_lim p z (- rho z * g).
(** squared buoyancy frequency [n2] of the potential temperature [theta]:
    N^2 theta = g dtheta/dz *)
Definition buoyancy (g n2 : R) (theta : R -> R) (z : R) : Prop :=
  exists D, derivable_pt_lim theta z D /\ g * D = n2 * theta z.
(** a damping rate that falls from [s] at the boundary, at distance 0, to 0 at the
    distance [w] and beyond *)
Definition taper (s w d : R) : R := s * Rsqr (cos (PI / 2 * Rmin 1 (d / w))).
