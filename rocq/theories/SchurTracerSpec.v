(** * Column equations of tracer and density *)
From Coq Require Import Reals List.
Local Open Scope R_scope.

Definition total (l : list nat) (h : nat -> R) : R := fold_right (fun m s => h m + s) 0 l.
(** [d] solves the [n] equations with coefficients [T] *)
Definition solves (n : nat) (T : nat -> nat -> R) (f d : nat -> R) : Prop :=
  forall k, (k < n)%nat -> total (seq 0 n) (fun q => T k q * d q) = f k.
(** the equation of a level in the full system: [E] by component and place *)
Definition full_equation (n : nat) (E d : nat -> nat -> R) (f : R) : Prop :=
  total (seq 0 (S n)) (fun m => E 0%nat m * d 0%nat m + E 1%nat m * d 1%nat m + E 2%nat m * d 2%nat m) = f.
(** what a column holds *)
Definition held (n : nat) (om jn t : nat -> R) : R := total (seq 0 n) (fun k => om k * jn k * t k).
