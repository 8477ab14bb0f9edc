(** * Dry thermodynamics *)
From Coq Require Import Reals List.
Import ListNotations.
Local Open Scope R_scope.

(** gas constant [r], heat capacity [c] and reference pressure [p0] *)
(** Poisson's law with the ideal gas law: p = p0 (r rho theta / p0)^(c/(c-r)) *)
Definition poisson (r c p0 x : R) : R := p0 * Rpower (r * x / p0) (c / (c - r)).
(** Exner function times c *)
Definition exner (r c p0 p : R) : R := c * Rpower (p / p0) (r / c).

Definition inverse_on_positive (f h : R -> R) : Prop :=
  forall x, 0 < x -> 0 < f x /\ 0 < h x /\ h (f x) = x /\ f (h x) = x.

(** a map of the unit column *)
Definition column_map (f : R -> R) : Prop :=
  f 0 = 0 /\ f 1 = 1 /\ (forall x y, 0 <= x -> x < y -> y <= 1 -> f x < f y) /\ (forall x, 0 <= x <= 1 -> 0 <= f x <= 1).

Definition norm2 (l : list R) : R := fold_right (fun x s => x * x + s) 0 l.
