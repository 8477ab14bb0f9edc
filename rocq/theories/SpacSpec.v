(** * Nodes of a line of equal elements *)
From Coq Require Import ZArith Reals List.
Import ListNotations.
Local Open Scope R_scope.

(** element [e] (any integer) starts at z + e d and carries the points of [g];
    index e * per + s is its point s *)
Definition line_of (z d : R) (g : list R) (e : Z) (s : nat) : R := z + IZR e * d + nth s g 0.

(** sum of f e 0, ..., f e (k-1) *)
Fixpoint total (k : nat) (f : nat -> R) : R := match k with O => 0 | S j => total j f + f j end.
