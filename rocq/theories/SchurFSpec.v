(** * Partial derivatives of the column equations *)
From Coq Require Import Reals.
Local Open Scope R_scope.

(** one unknown moved by [t] *)
Definition moved_by (x : nat -> nat -> R) (c k : nat) (t : R) : nat -> nat -> R :=
  fun c' k' => if (Nat.eqb c' c && Nat.eqb k' k)%bool then x c' k' + t else x c' k'.
(** [d] is the derivative of equation [c1], [k1] of the system [f] at [x] with respect to
    unknown [c0], [k0] *)
Definition partial_derivative (f : (nat -> nat -> R) -> nat -> nat -> R) (x : nat -> nat -> R) (c1 k1 c0 k0 : nat) (d : R) : Prop :=
  derivable_pt_lim (fun t => f (moved_by x c0 k0 t) c1 k1) 0 d.
