(** * What the physics of a column should do
    Independent of the routine's own formulas: budgets, saturation, and the mixing
    equation, for a column of [n] layers with dry density [r], mid heights [h] and
    interfaces [g]. *)
From Coq Require Import Reals.
Local Open Scope R_scope.

Fixpoint total (n : nat) (f : nat -> R) : R := match n with O => 0 | S k => total k f + f k end.
(** layers with positive thickness and density, above sea level, and a positive step *)
Definition column_ok (n : nat) (r h g : nat -> R) (dt : R) : Prop :=
  (0 < n)%nat /\ 0 < dt /\ 0 <= g 0%nat /\ 0 < h 0%nat /\
  (forall k, (k < n)%nat -> 0 < r k) /\
  (forall k, (k < n)%nat -> g k < g (S k)) /\
  (forall k, (S k < n)%nat -> h k < h (S k)).
(** mass of water vapour per area *)
Definition vapour (n : nat) (r g q : nat -> R) : R := total n (fun k => r k * q k * (g (S k) - g k)).
(** saturation specific humidity: e_s eps / p, where e_s obeys Clausius and Clapeyron *)
Definition clausius (eps p L Rv t0 e0 : R) (qs : R -> R) : Prop :=
  qs t0 = eps * e0 / p /\ forall t, 0 < t -> derivable_pt_lim qs t (L * qs t / (Rv * (t * t))).
(** upward turbulent flux of [y] between layers k and k+1; none below the first and above
    the last *)
Definition flux (n : nat) (m K h y : nat -> R) (k : nat) : R :=
  match k with
  | O => 0
  | S j => if Nat.ltb k n then - (K k * ((m j + m k) / 2) * (y k - y j) / (h k - h j)) else 0
  end.
(** [y] is [x] mixed over one implicit step *)
Definition mixed (n : nat) (m K h g : nat -> R) (dt : R) (x y : nat -> R) : Prop :=
  forall k, (k < n)%nat -> m k * (g (S k) - g k) * (y k - x k) / dt = flux n m K h y k - flux n m K h y (S k).
(** relaxed towards [b] at rate [c] over one implicit step *)
Definition relaxed (c dt b x y : R) : Prop := (y - x) / dt = c * (b - y).
Definition between (a b x : R) : Prop := (a <= x <= b) \/ (b <= x <= a).
(** dry density, mixing ratio, specific humidity and moist density belong together *)
Definition moist (r qv q m : R) : Prop := m = r * (1 + qv) /\ q * m = r * qv.
(** ideal gas with virtual temperature *)
Definition ideal (Rd zv p m t qv : R) : Prop := p = m * Rd * (t * (1 + zv * qv)).
