(** * Two species with Cl2 -> 2 Cl at the rate a and 2 Cl -> Cl2 at the rate b *)
From Coq Require Import Reals.
Local Open Scope R_scope.

(** d[Cl]/dt *)
Definition reaction (a b x y : R) : R := 2 * a * y - 2 * b * x * x.
(** [X] is the amount of Cl along a solution that starts from x with total
    chlorine [total] *)
Definition solution (a b total x : R) (X : R -> R) : Prop :=
  X 0 = x /\ forall s, 0 <= s -> derivable_pt_lim X s (reaction a b (X s) ((total - X s) / 2)).
(** the unit vector of a latitude and longitude, and the scalar product *)
Definition direction (lat lon : R) : R * R * R := (cos lat * cos lon, cos lat * sin lon, sin lat).
Definition dot3 (a b : R * R * R) : R :=
  let '(x, y, z) := a in let '(x', y', z') := b in x * x' + y * y' + z * z'.
