(** * What vertical interpolation and differentiation should do *)
From Coq Require Import Reals List.
From Verif Require Import QuadSpec InterpSpec ColModel.
Import ListNotations.
Local Open Scope R_scope.

(** a column of ne elements of order o: strictly increasing levels and
    interfaces, neighbours at least 1e-11 apart *)
Definition spaced (l : list R) : Prop :=
  forall i j, (i < j < length l)%nat -> nth i l 0 + / 10 ^ 11 <= nth j l 0.
Definition column (o ne : nat) (nodes edges : list R) : Prop :=
  (0 < o)%nat /\ (0 < ne)%nat /\ length nodes = (ne * o)%nat /\ length edges = (ne * o + 1)%nat /\ spaced nodes /\ spaced edges.

(** row r of the operator turns the values at the points xs of every polynomial
    with at most n coefficients into the value of its k-th derivative at y *)
Definition row_exact (k n : nat) (A : op) (xs : list R) (r : nat) (y : R) : Prop :=
  forall p g, (length p <= n)%nat -> nth_derivative k (peval p) g ->
  apply1 A (fun l => peval p (nth l xs 0)) r = g y.
(** the points outside the run b .. e - 1 have no influence on row r *)
Definition row_local (A : op) (r b e : nat) : Prop :=
  forall u v, (forall l, (b <= l < e)%nat -> u l = v l) -> apply1 A u r = apply1 A v r.
(** the point lies in element a up to 1e-12 *)
Definition near_element (edges : list R) (o ne a : nat) (y : R) : Prop :=
  (a < ne)%nat /\ (a = 0%nat \/ nth (a * o) edges 0 <= y) /\ (S a = ne \/ y <= nth (S a * o) edges 0 + / 10 ^ 12).
(** outputs for which order one is usable: at least two elements, the first
    output in the first element, the last of several outputs above it *)
Definition order_one_ok (o ne : nat) (edges outs : list R) : Prop := o = 1%nat ->
  (2 <= ne)%nat /\ nth 0 outs 0 < nth 1 edges 0 - / 10 ^ 12 /\
  ((1 < length outs)%nat -> nth 1 edges 0 + / 10 ^ 12 < nth (length outs - 1) outs 0).
