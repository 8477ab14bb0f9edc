(** * What the state of the supercell should satisfy *)
From Coq Require Import Reals.
Local Open Scope R_scope.

(** gas law for moist air: p = rho R T (1 + e q) *)
Definition moist_gas (r e p rho t q : R) : Prop := p = rho * r * (t * (1 + e * q)).
(** a function that increases from a point on *)
Definition increasing_from (a : R) (f : R -> R) : Prop := forall x y, a <= x -> x < y -> f x < f y.
