(** * What a Newton-Krylov step should achieve *)
From Coq Require Import Reals.
Local Open Scope R_scope.

Fixpoint sum (n : nat) (f : nat -> R) : R :=
  match n with O => 0 | S k => sum k f + f k end.
(** Euclidean length of the first [n] entries *)
Definition length2 (n : nat) (x : nat -> R) : R := sqrt (sum n (fun j => x j * x j)).
(** [n] linear equations in [n] unknowns *)
Definition affine (n : nat) (F : (nat -> R) -> nat -> R) : Prop :=
  exists (M : nat -> nat -> R) (c : nat -> R),
    forall x j, (j < n)%nat -> F x j = c j + sum n (fun k => M j k * x k).
