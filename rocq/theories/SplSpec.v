(** * Split time steps
    Stated on arrays of values only. *)
From Coq Require Import ZArith Reals.
From Verif Require Import ShallowSpec.
Local Open Scope R_scope.

(** the weighted mean of the old and the new value, weight (1 + e) / 2 on the new *)
Definition between (e old new : R) : R := (1 - e) / 2 * old + (1 + e) / 2 * new.
(** one off-centred implicit step of the equations of a column, linearised for the
    pressure: rho, x = rho theta, w = rho w before, r', x', w' after; the air crosses the
    coordinate surfaces at the rate w - l before and w' - l' after, and not at all at the
    ground and the lid; th is the potential temperature on interfaces, s the slope of the
    pressure against x; fr, fx, fw are whatever else acts *)
Definition crossing (N : nat) (w l : nat -> R) (k : nat) : R :=
  if Nat.eqb k 0 then 0 else if Nat.eqb k N then 0 else w k - l k.
Definition offcentred (N : nat) (zn zi : nat -> R) (g dt e : R) (s th r x w l r' x' w' l' fr fx fw : nat -> R) : Prop :=
  let m k := between e (crossing N w l k) (crossing N w' l' k) in
  w' O = 0 /\ w' N = 0 /\
  (forall k, (k < N)%nat -> (r' k - r k) / dt = fr k - (m (S k) - m k) / (zi (S k) - zi k)) /\
  (forall k, (k < N)%nat -> (x' k - x k) / dt = fx k - (th (S k) * m (S k) - th k * m k) / (zi (S k) - zi k)) /\
  (forall k, (S k < N)%nat -> (w' (S k) - w (S k)) / dt =
     fw (S k) - (s (S k) * between e (x (S k)) (x' (S k)) - s k * between e (x k) (x' k)) / (zn (S k) - zn k)
     - g * ((between e (r k) (r' k) + between e (r (S k)) (r' (S k))) / 2)).
(** the weak divergence of the flux (fa, fb) at node (i, j) of the element at (p, q) *)
Definition weak_div (n : nat) (S : nat -> nat -> R) (dA dB : R) (J fa fb : Z -> Z -> R) (p q : Z) (i j : nat) : R :=
  - (nsum n (fun s => fa (p + Z.of_nat s)%Z (q + Z.of_nat j)%Z * S i s) / dA +
     nsum n (fun s => fb (p + Z.of_nat i)%Z (q + Z.of_nat s)%Z * S j s) / dB) / J (p + Z.of_nat i)%Z (q + Z.of_nat j)%Z.
(** what the N layers over an element contain of a density f; J is the volume at a node *)
Definition block_total (N n : nat) (w : nat -> R) (p q : Z) (J f : nat -> Z -> Z -> R) : R :=
  nsum N (fun k => element_sum n w p q (fun x y => J k x y * f k x y)).
