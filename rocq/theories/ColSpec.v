(** * Linear maps of columns *)
From Coq Require Import Reals List.
Import ListNotations.
Local Open Scope R_scope.

Definition sum (f : nat -> R) (n : nat) : R := fold_right Rplus 0 (map f (seq 0 n)).
(** the dense matrix-vector product *)
Definition matvec (a : nat -> nat -> R) (n : nat) (col : nat -> R) (r : nat) : R := sum (fun l => a r l * col l) n.
