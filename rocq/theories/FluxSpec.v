(** * Flux correction, weak derivatives and penalties on a column *)
From Coq Require Import Reals List.
From Verif Require Import QuadSpec ColSpec.
Import ListNotations.
Local Open Scope R_scope.

(** x solves the n equations  sum_i A i c * x i = b c *)
Definition solves (n : nat) (A : nat -> nat -> R) (b x : nat -> R) : Prop :=
  forall c, (c < n)%nat -> sum (fun i => A i c * x i) n = b c.

(** P is the correction polynomial of degree N: one at 1, a zero of multiplicity
    t at -1, orthogonal on [-1, 1] to all polynomials of degree below N - t *)
Definition correction (t N : nat) (P : list R) : Prop :=
  (length P <= N + 1)%nat /\ peval P 1 = 1 /\
  (exists Q, (length Q <= N + 1 - t)%nat /\ forall x, peval P x = (x + 1) ^ t * peval Q x) /\
  (forall n F, (n < N - t)%nat -> (forall x, derivable_pt_lim F x (peval P x * x ^ n)) -> F 1 = F (-1)).

(** p interpolates the column values u at the n points of xs from index off *)
Definition interpolates (n : nat) (xs : list R) (off : nat) (u : nat -> R) (p : list R) : Prop :=
  (length p <= n)%nat /\ forall i, (i < n)%nat -> peval p (nth (off + i) xs 0) = u (off + i)%nat.
(** the coordinate that maps [a, b] to [-1, 1] *)
Definition local (a b x : R) : R := (2 * x - a - b) / (b - a).
(** p changed by jl at a and by jr at b with the correction polynomial *)
Definition corrected (P p : list R) (a b jl jr x : R) : R :=
  peval p x + jr * peval P (local a b x) + jl * peval P (- local a b x).
(** edge i of element a of a column with o levels per element *)
Definition edge (o : nat) (edges : list R) (i : nat) : R := nth (i * o) edges 0.
(** step of the piecewise polynomial p at the interior edge i: above minus below *)
Definition step (o : nat) (edges : list R) (p : nat -> list R) (i : nat) : R :=
  peval (p i) (edge o edges i) - peval (p (i - 1)%nat) (edge o edges i).
(** change of the flux-corrected derivative of element a at its lower and upper
    edge: to the mean of both sides at interior edges; at the ends of the column
    nothing, or (zero = false) the opposite of the change at the other edge *)
Definition low_step (o ne : nat) (edges : list R) (zero : bool) (p : nat -> list R) (a : nat) : R :=
  if (a =? 0)%nat then if (negb zero && negb (ne =? 1)%nat)%bool then - (1 / 2 * step o edges p 1) else 0
  else - (1 / 2 * step o edges p a).
Definition high_step (o ne : nat) (edges : list R) (zero : bool) (p : nat -> list R) (a : nat) : R :=
  if (a =? ne - 1)%nat then if (negb zero && negb (ne =? 1)%nat)%bool then 1 / 2 * step o edges p a else 0
  else 1 / 2 * step o edges p (a + 1).
(** out lies in element a, edges to the neighbours excluded *)
Definition inside (o ne : nat) (edges : list R) (out : R) (a : nat) : Prop :=
  (a < ne)%nat /\ (edge o edges a < out \/ a = 0%nat /\ edge o edges a <= out) /\ (out < edge o edges (a + 1) \/ (a + 1 = ne)%nat /\ out <= edge o edges (a + 1)).
(** the point is the edge e or more than 1e-12 away from it *)
Definition clear_of (e x : R) : Prop := x = e \/ x < e - / 10 ^ 12 \/ e + / 10 ^ 12 < x.
(** points and weights of a quadrature rule on [a, b] *)
Definition rule_point (rule : nat -> R -> R -> option (list R * list R)) (n : nat) (a b : R) (i : nat) : R :=
  match rule n a b with Some (G, _) => nth i G 0 | None => 0 end.
Definition rule_weight (rule : nat -> R -> R -> option (list R * list R)) (n : nat) (a b : R) (i : nat) : R :=
  match rule n a b with Some (_, W) => nth i W 0 | None => 0 end.
(** the rule gives n points and n weights on every interval *)
Definition gives (rule : nat -> R -> R -> option (list R * list R)) (n : nat) : Prop :=
  forall a b, a < b -> exists G W, rule n a b = Some (G, W) /\ length G = n /\ length W = n.
(** its weights are positive and proportional to the length of the interval *)
Definition scaled (rule : nat -> R -> R -> option (list R * list R)) (n : nat) : Prop :=
  forall i, (i < n)%nat -> 0 < rule_weight rule n 0 1 i /\ forall a b, a < b -> rule_weight rule n a b i = (b - a) * rule_weight rule n 0 1 i.
(** sum over the o + 1 interfaces of each of the ne elements; interfaces shared by
    two elements count twice *)
Definition over_interfaces (o ne : nat) (f : nat -> nat -> R) : R := sum (fun a => sum (f a) (o + 1)) ne.
(** sum over the o levels of each of the ne elements *)
Definition over_levels (o ne : nat) (f : nat -> nat -> R) : R := sum (fun a => sum (f a) o) ne.
(** length of element a *)
Definition width (o : nat) (edges : list R) (a : nat) : R := edge o edges (a + 1) - edge o edges a.
(** flux of the column p with derivatives g through the element edge i, seen from
    element a: mean slope and s / (2 * width) times the step; none at the ends *)
Definition edge_flux (s : R) (o ne : nat) (edges : list R) (p : nat -> list R) (g : nat -> R -> R) (a i : nat) : R :=
  if ((i =? 0) || (i =? ne))%bool%nat then 0
  else 1 / 2 * (g (i - 1)%nat (edge o edges i) + g i (edge o edges i)) + 1 / 2 * (s / width o edges a) * step o edges p i.
(** steps of a penalised column, with weight w a at the edge between a and a + 1 *)
Definition penalty_low (o : nat) (edges : list R) (w : nat -> R) (p : nat -> list R) (a : nat) : R :=
  if (a =? 0)%nat then 0 else 1 / 2 * w (a - 1)%nat * step o edges p a.
Definition penalty_high (o ne : nat) (edges : list R) (w : nat -> R) (p : nat -> list R) (a : nat) : R :=
  if (a + 1 =? ne)%nat then 0 else 1 / 2 * w a * step o edges p (a + 1).

(** q is the reconstruction of u around level c: the polynomial through the values
    on level c and the h levels to each side of it that the column has *)
Definition reconstructs (h : nat) (nodes : list R) (u : nat -> R) (c : nat) (q : list R) : Prop :=
  interpolates (S (Nat.min (c + h) (length nodes - 1)) - (c - h)) nodes (c - h) u q.
(** the weights omega of the o levels of the element [a, b] integrate derivatives
    of polynomials with n coefficients exactly *)
Definition integrates_on (n o : nat) (nodes : list R) (off : nat) (a b : R) (omega : nat -> R) : Prop :=
  forall F f, (length F <= n)%nat -> (forall x, derivable_pt_lim (peval F) x (f x)) ->
    sum (fun i => omega i * f (nth (off + i) nodes 0)) o = peval F b - peval F a.
(** the rules on element a of a column: weight of interface j, of level i, and
    quadrature point i *)
Definition interface_weight (lobatto : nat -> R -> R -> option (list R * list R)) (o : nat) (edges : list R) (a j : nat) : R :=
  rule_weight lobatto (o + 1) (edge o edges a) (edge o edges (a + 1)) j.
Definition level_weight (gauss : nat -> R -> R -> option (list R * list R)) (o : nat) (edges : list R) (a i : nat) : R :=
  rule_weight gauss o (edge o edges a) (edge o edges (a + 1)) i.
Definition level_point (gauss : nat -> R -> R -> option (list R * list R)) (o : nat) (edges : list R) (a i : nat) : R :=
  rule_point gauss o (edge o edges a) (edge o edges (a + 1)) i.
(** weight of interface j of element a, doubled where the interface is shared *)
Definition doubled_weight (lobatto : nat -> R -> R -> option (list R * list R)) (o ne : nat) (edges : list R) (a j : nat) : R :=
  let w := interface_weight lobatto o edges a j in
  let w1 := if ((j =? 0) && negb (a =? 0))%bool%nat then w * 2 else w in
  if ((j =? o) && negb (a =? ne - 1))%bool%nat then w1 * 2 else w1.
(** points at which the stiffness is taken: the interfaces, or the points of the rule *)
Definition stiffness_point (lobatto : nat -> R -> R -> option (list R * list R)) (at_points : bool) (o : nat) (edges : list R) (a k : nat) : R :=
  if at_points then rule_point lobatto (o + 1) (edge o edges a) (edge o edges (a + 1)) k else nth (a * o + k) edges 0.
(** u is piecewise polynomial on the interfaces of each element, with derivative g *)
Definition elementwise (o ne : nat) (edges : list R) (u : nat -> R) (q : nat -> list R) (g : nat -> R -> R) : Prop :=
  forall a, (a < ne)%nat -> interpolates (o + 1) edges (a * o) u (q a) /\ forall x, derivable_pt_lim (peval (q a)) x (g a x).
(** the same on the levels of each element *)
Definition levelwise (o ne : nat) (nodes : list R) (u : nat -> R) (p : nat -> list R) (g : nat -> R -> R) : Prop :=
  forall a, (a < ne)%nat -> interpolates o nodes (a * o) u (p a) /\ forall x, derivable_pt_lim (peval (p a)) x (g a x).
