(** * The linear equations of a column *)
From Coq Require Import ZArith Reals Lia.
From Verif Require Import KrylovSpec.
Local Open Scope R_scope.

(** A column of [n] levels has, for each of the places 0..n, a thermodynamic (0), a
    velocity (1) and a density unknown (2); unknown [c] of place [k] is number 3k+c,
    and so is its equation.  [J row column]. *)
Definition number (c k : nat) : Z := (3 * Z.of_nat k + Z.of_nat c)%Z.
Definition matrix := Z -> Z -> R.
Definition product (n : nat) (J : matrix) (x : nat -> nat -> R) (row : Z) : R :=
  sum (S n) (fun k => J row (number 0 k) * x 0%nat k + J row (number 1 k) * x 1%nat k + J row (number 2 k) * x 2%nat k).

(** band storage by columns, [half] places on either side of the diagonal; the entries
    further away, and those of rows that do not exist, are zero *)
Definition stored (half : Z) (n : nat) (J : matrix) (g : Z -> R) : Prop :=
  (forall r c, (0 <= c < 3 * Z.of_nat (S n))%Z -> (- half <= r - c <= half)%Z -> g (half + (r - c) + (2 * half + 1) * c)%Z = J r c) /\
  (forall r c, ~ (0 <= r < 3 * Z.of_nat (S n))%Z \/ ~ (- half <= r - c <= half)%Z -> J r c = 0).
(** the same equations except that each density equation has, in the place of its
    thermodynamic unknown [off] levels further down, an entry of another equation *)
Definition spoiled (off : nat) (J : matrix) : matrix :=
  fun r c => if ((r - c =? 3 * Z.of_nat off + 2) && (c mod 3 =? 0))%Z%bool then J (c - 3 * Z.of_nat off)%Z (c + 1)%Z else J r c.
(** what the band solver of LAPACK is for: [x] solves the equations whose matrix of
    order [size] is stored by columns with [half] places on either side of the diagonal
    and [half] places more above *)
Definition band_solution (half : Z) (size : nat) (m b x : Z -> R) : Prop :=
  forall r, (0 <= r < Z.of_nat size)%Z ->
  sum size (fun j => let c := Z.of_nat j in
    (if (Z.abs (r - c) <=? half)%Z then m (2 * half + (r - c) + (3 * half + 1) * c)%Z else 0) * x c) = b r.

(** the couplings of the column: interface velocities feel only their own past and the
    levels within [off] of the interface, levels feel the two interfaces around them
    that are not the ground or the lid, and levels within [off] *)
Record couplings (n off : nat) (dt : R) (J : matrix) : Prop := {
  own : forall i j, (i <= n)%nat -> (j <= n)%nat -> J (number 1 i) (number 1 j) = if Nat.eqb i j then 1 / dt else 0;
  fluxes : forall c k i, (c = 0 \/ c = 2)%nat -> (k <= n)%nat -> (i <= n)%nat -> ~ (k < n /\ (i = k \/ i = k + 1) /\ 1 <= i < n)%nat ->
    J (number c k) (number 1 i) = 0;
  gradients : forall c i l, (c = 0 \/ c = 2)%nat -> (i <= n)%nat -> (l <= n)%nat -> ~ (1 <= i < n /\ l < n /\ i <= l + off /\ l < i + off)%nat ->
    J (number 1 i) (number c l) = 0;
  levels : forall c c' k l, (c = 0 \/ c = 2)%nat -> (c' = 0 \/ c' = 2)%nat -> (k < n)%nat -> (l <= n)%nat ->
    ~ (l < n /\ k <= l + off /\ l <= k + off)%nat -> J (number c k) (number c' l) = 0 }.

(** nodes that two elements share: the last node of element [e] and the first one of the
    next, elements of [order] nodes that begin at [start] *)
Definition shared (start order e : nat) : nat * nat := ((start + (e + 1) * order - 1)%nat, (start + (e + 1) * order)%nat).
(** agreement of a field in all its horizontal places *)
Definition horizontally_uniform (d : nat * nat * nat -> R) (h : nat -> R) : Prop := forall a b r, d (a, b, r) = h r.
