(** * Newtonian relaxation and Rayleigh friction *)
From Coq Require Import Reals.
Local Open Scope R_scope.

(** backward Euler for du/dt = - a u over a step dt *)
Definition implicit_decay (a dt u u' : R) : Prop := u' - u = - dt * a * u'.
(** the squared length of (u, v) in a metric *)
Definition length2 (g11 g12 g22 u v : R) : R := g11 * u * u + 2 * g12 * u * v + g22 * v * v.
(** the boundary layer profile: 0 above the sigma level b, 1 at sigma = 1,
    linear between *)
Definition profile (b s : R) : R := Rmax 0 ((s - b) / (1 - b)).
(** [x'] is one linearly implicit (Rosenbrock) Euler step of dx/dt = F x *)
Definition rosenbrock (F : R -> R) (dt x x' : R) : Prop :=
  exists D, derivable_pt_lim F x D /\ 1 - dt * D <> 0 /\ x' - x = dt * F x / (1 - dt * D).
(** [F] makes the temperature [T x] relax to [te] at the rate [k] *)
Definition relaxes (F T : R -> R) (k te x : R) : Prop :=
  exists D, derivable_pt_lim T x D /\ D * F x = - k * (T x - te).
