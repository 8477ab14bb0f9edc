(** * Equal elements and piecewise polynomials *)
From Coq Require Import Reals ZArith List.
From Verif Require Import QuadSpec InterpSpec SampModel.
Local Open Scope R_scope.

(** the array of a direction starts, after [halo] entries, with the nodes of
    equal elements of width d, np nodes each at offsets g, the first from a0 on,
    and the end of the last element follows *)
Record equal_elements (np halo : nat) (ax : axis) (a0 d : R) (g : nat -> R) : Prop := {
  ee_np : (1 < np)%nat;
  ee_pos : 0 < d;
  ee_some : (0 < elements ax)%Z;
  ee_distinct : distinct np g;
  ee_first : g 0%nat = 0;
  ee_last : g (np - 1)%nat = d;
  ee_inside : forall m, (m < np)%nat -> 0 <= g m <= d;
  ee_nodes : forall e m, (Z.of_nat e < elements ax)%Z -> (m < np)%nat -> edge ax (halo + e * np + m)%nat = a0 + INR e * d + g m;
  ee_end : edge ax (halo + Z.to_nat (elements ax) * np)%nat = a0 + IZR (elements ax) * d
}.
(** interior indices of the array *)
Definition interior_ix (np halo : nat) (ax : axis) (i : nat) : Prop :=
  (halo <= i < halo + Z.to_nat (elements ax) * np)%nat.
(** a polynomial of degree below n *)
Definition poly (n : nat) (f : R -> R) : Prop := exists p, (length p <= n)%nat /\ forall t, f t = peval p t.
(** nodes at the same place carry the same value *)
Definition agree_on_nodes (np halo : nat) (axa axb : axis) (d : nat -> nat -> R) : Prop :=
  forall i i' j j', interior_ix np halo axa i -> interior_ix np halo axa i' -> interior_ix np halo axb j -> interior_ix np halo axb j' ->
    edge axa i = edge axa i' -> edge axb j = edge axb j' -> d i j = d i' j'.
(** a field with one value per element *)
Definition elementwise (np halo : nat) (axa axb : axis) (d : nat -> nat -> R) : Prop :=
  forall e e' m n, (Z.of_nat e < elements axa)%Z -> (Z.of_nat e' < elements axb)%Z -> (m < np)%nat -> (n < np)%nat ->
    d (halo + e * np + m)%nat (halo + e' * np + n)%nat = d (halo + e * np)%nat (halo + e' * np)%nat.
