(** * Columns of air and changes of units
    Stated on arrays of values only. *)
From Coq Require Import ZArith Reals.
From Verif Require Import ShallowSpec.
Local Open Scope R_scope.

(** what a column with interfaces [zi] contains of a density f *)
Definition column_total (N : nat) (zi f : nat -> R) : R := nsum N (fun k => (zi (S k) - zi k) * f k).
(** vertically moving air over one backward Euler step, linearised for the pressure:
    rho, x = rho theta and w = rho w before, r', x' after; m is the mass flux at the
    end of the step, th the potential temperature on interfaces, p the pressure and s
    its slope against x; rigid ground and lid *)
Definition acoustic (N : nat) (zn zi : nat -> R) (g dt : R) (p s th r x w r' x' m : nat -> R) : Prop :=
  m O = 0 /\ m N = 0 /\
  (forall k, (k < N)%nat -> (r' k - r k) / dt = - (m (S k) - m k) / (zi (S k) - zi k)) /\
  (forall k, (k < N)%nat -> (x' k - x k) / dt = - (m (S k) * th (S k) - m k * th k) / (zi (S k) - zi k)) /\
  (forall k, (S k < N)%nat ->
     (m (S k) - w (S k)) / dt =
     - ((p (S k) + s (S k) * (x' (S k) - x (S k))) - (p k + s k * (x' k - x k))) / (zn (S k) - zn k)
     - g * ((r' k + r' (S k)) / 2)).
(** rows 1 .. N - 1 of a tridiagonal matrix outweighed by their diagonal *)
Definition dominant (N : nat) (a b c : nat -> R) : Prop :=
  forall k, (0 < k < N)%nat -> Rabs (a k) + Rabs (c k) < Rabs (b k).
