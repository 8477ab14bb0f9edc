(** * What diffusion, filters and friction keep
    Stated on arrays of values, with the sums of ShallowSpec. *)
From Coq Require Import ZArith Reals List.
From Verif Require Import ShallowSpec.
Import ListNotations.
Local Open Scope R_scope.

(** derivative of f along each axis at node (i, j) of the element at (p, q) *)
Definition ddx (n : nat) (D : nat -> nat -> R) (dA : R) (f : Z -> Z -> R) (p q : Z) (i j : nat) : R :=
  nsum n (fun s => f (p + Z.of_nat s)%Z (q + Z.of_nat j)%Z * D s i) / dA.
Definition ddy (n : nat) (D : nat -> nat -> R) (dB : R) (f : Z -> Z -> R) (p q : Z) (i j : nat) : R :=
  nsum n (fun s => f (p + Z.of_nat i)%Z (q + Z.of_nat s)%Z * D s j) / dB.
(** sum over the nodes (i, j) of an element with one weight per direction *)
Definition node_sum (n : nat) (w : nat -> R) (f : nat -> nat -> R) : R :=
  nsum n (fun i => nsum n (fun j => w i * w j * f i j)).
(** the integral of J grad f . grad k over an element, gaa, gab, gbb being the
    contravariant metric *)
Definition dirichlet (n : nat) (w : nat -> R) (D : nat -> nat -> R) (dA dB : R) (p q : Z)
    (J gaa gab gbb f k : Z -> Z -> R) : R :=
  node_sum n w (fun i j => let x := (p + Z.of_nat i)%Z in let y := (q + Z.of_nat j)%Z in
    let fa := ddx n D dA f p q i j in let fb := ddy n D dB f p q i j in
    let ka := ddx n D dA k p q i j in let kb := ddy n D dB k p q i j in
    J x y * (gaa x y * fa * ka + gab x y * (fa * kb + fb * ka) + gbb x y * fb * kb)).
(** divergence and curl of the covariant velocity (u, v) *)
Definition div_of (n : nat) (D : nat -> nat -> R) (dA dB : R) (J gaa gab gbb u v : Z -> Z -> R) (p q : Z) (i j : nat) : R :=
  (ddx n D dA (fun x y => J x y * (gaa x y * u x y + gab x y * v x y)) p q i j +
   ddy n D dB (fun x y => J x y * (gab x y * u x y + gbb x y * v x y)) p q i j) / J (p + Z.of_nat i)%Z (q + Z.of_nat j)%Z.
Definition curl_of (n : nat) (D : nat -> nat -> R) (dA dB : R) (J u v : Z -> Z -> R) (p q : Z) (i j : nat) : R :=
  (ddx n D dA v p q i j - ddy n D dB u p q i j) / J (p + Z.of_nat i)%Z (q + Z.of_nat j)%Z.
(** a positive definite metric *)
Definition definite (gaa gab gbb : R) : Prop := 0 < gaa /\ 0 < gaa * gbb - gab * gab.

(** mass of a list of (mixing ratio, area) *)
Definition total (l : list (R * R)) : R := fold_right (fun e s => fst e * snd e + s) 0 l.
(** y lies between x and r, at distance c |x - r| from r *)
Definition contracted (c r x y : R) : Prop := y - r = c * (x - r).
(** mass of the values f in an element *)
Definition element_mass (n : nat) (p q : Z) (area f : Z -> Z -> R) : R :=
  nsum n (fun i => nsum n (fun j => f (p + Z.of_nat i)%Z (q + Z.of_nat j)%Z * area (p + Z.of_nat i)%Z (q + Z.of_nat j)%Z)).
