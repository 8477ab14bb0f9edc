(** * Linear equations and their solution *)
From Coq Require Import Reals.
From Verif Require Import KrylovSpec.
Local Open Scope R_scope.

(** the equations F are [n] linear ones with matrix [M] and right-hand side -[c] *)
Definition equations (n : nat) (M : nat -> nat -> R) (c : nat -> R) (F : (nat -> R) -> nat -> R) : Prop :=
  forall x j, (j < n)%nat -> F x j = c j + sum n (fun k => M j k * x k).
(** the sum of the squares of the residuals at [x] *)
Definition squares (n : nat) (F : (nat -> R) -> nat -> R) (x : nat -> R) : R := sum n (fun j => F x j * F x j).
(** only the zero vector is sent to zero *)
Definition injective (n : nat) (M : nat -> nat -> R) : Prop :=
  forall y, (forall j, (j < n)%nat -> sum n (fun k => M j k * y k) = 0) -> forall j, (j < n)%nat -> y j = 0.
(** the residual, and the residual multiplied by the matrix, as a product of rows *)
Definition energy (n : nat) (M : nat -> nat -> R) (f : nat -> R) : R :=
  sum n (fun j => f j * sum n (fun k => M j k * f k)).
