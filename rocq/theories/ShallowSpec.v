(** * What a shallow-water step keeps
    Sums over the nodes of an element or a patch, and the conserved quantities,
    stated on arrays of values only. *)
From Coq Require Import ZArith Reals List.
Import ListNotations.
Local Open Scope R_scope.

(** f 0 + .. + f (n - 1) *)
Fixpoint nsum (n : nat) (f : nat -> R) : R := match n with O => 0 | S k => nsum k f + f k end.
(** over the n x n nodes of the element whose first node is (p, q), with one weight
    per direction *)
Definition element_sum (n : nat) (w : nat -> R) (p q : Z) (f : Z -> Z -> R) : R :=
  nsum n (fun i => nsum n (fun j => w i * w j * f (p + Z.of_nat i)%Z (q + Z.of_nat j)%Z)).
(** over the elements of a patch whose interior starts at (h, h) *)
Definition patch_sum (n : nat) (w : nat -> R) (h : Z) (nA nB : nat) (f : Z -> Z -> R) : R :=
  nsum nA (fun a => nsum nB (fun b =>
    element_sum n w (h + Z.of_nat (a * n))%Z (h + Z.of_nat (b * n))%Z f)).

(** nodes, weights and a derivative matrix of an element: D m i is the derivative
    at node i of the polynomial that is 1 at node m and 0 at the others; only its
    action on constants is used here *)
Definition annihilates_constants (n : nat) (D : nat -> nat -> R) : Prop :=
  forall i, (i < n)%nat -> nsum n (fun m => D m i) = 0.
(** the weak form is the transpose of the derivative under the quadrature *)
Definition adjoint (n : nat) (w : nat -> R) (D S : nat -> nat -> R) : Prop :=
  forall m i, (m < n)%nat -> (i < n)%nat -> w m * S m i = w i * D m i.

(** energy per unit area: 1/2 d (u^a u_a + u^b u_b) + 1/2 G h^2 with depth
    d = h - topography and u^a = g^aa u_a + g^ab u_b, u^b = g^ab u_a + g^bb u_b *)
Definition energy_density (G gaa gab gbb b ua ub h : R) : R :=
  1 / 2 * (h - b) * (ua * (gaa * ua + gab * ub) + ub * (gab * ua + gbb * ub)) + 1 / 2 * G * (h * h).

(** the same weight at both ends of an element *)
Definition symmetric (n : nat) (w : nat -> R) : Prop := forall i, (i < n)%nat -> w i = w (n - 1 - i)%nat.
(** weights equal to the tabulated ones, except that for order 4 (whose tables are
    rounded independently of each other) they agree to 10^-16 *)
Definition weights_of (n : nat) (W w : nat -> R) : Prop :=
  forall i, (i < n)%nat -> 0 < w i /\ Rabs (W i - w i) <= 1 / 10 ^ 16 /\ (n <> 4%nat -> W i = w i).

(** a property of the nodes of element (a, b) of a patch with halo h *)
Definition in_element (n : nat) (h : Z) (a b : nat) (P : Z -> Z -> Prop) : Prop :=
  forall i j, (i < n)%nat -> (j < n)%nat -> P (h + Z.of_nat (a * n) + Z.of_nat i)%Z (h + Z.of_nat (b * n) + Z.of_nat j)%Z.
(** circulation density of (u, v) at node (i, j) of the element at (p, q) *)
Definition curl (n : nat) (D : nat -> nat -> R) (dA dB : R) (p q : Z) (u v : Z -> Z -> R) (i j : nat) : R :=
  nsum n (fun s => v (p + Z.of_nat s)%Z (q + Z.of_nat j)%Z * D s i) / dA -
  nsum n (fun s => u (p + Z.of_nat i)%Z (q + Z.of_nat s)%Z * D s j) / dB.
