(** * What a quadrature rule should do *)
From Coq Require Import Reals List.
Import ListNotations.
Local Open Scope R_scope.

(** polynomial with coefficients c, lowest first *)
Fixpoint peval (c : list R) (x : R) : R := match c with [] => 0 | a :: r => a + x * peval r x end.
Definition abs_sum (c : list R) : R := fold_right (fun a s => Rabs a + s) 0 c.
Fixpoint wsum (f : R -> R) (g w : list R) : R :=
  match g, w with x :: g', a :: w' => a * f x + wsum f g' w' | _, _ => 0 end.

(** the rule (g, w) on [a, b] integrates every polynomial with at most d + 1
    coefficients, written in the coordinate that maps [a, b] to [-1, 1], up to
    eps times the half width times the size of the coefficients.  The integral
    is given by any antiderivative. *)
Definition integrates (d : nat) (eps a b : R) (g w : list R) : Prop :=
  forall c F, (length c <= S d)%nat ->
  (forall x, derivable_pt_lim F x (peval c ((2 * x - a - b) / (b - a)))) ->
  Rabs (wsum (fun x => peval c ((2 * x - a - b) / (b - a))) g w - (F b - F a)) <= eps * ((b - a) / 2) * abs_sum c.

Fixpoint increasing (l : list R) : Prop :=
  match l with x :: ((y :: _) as r) => x < y /\ increasing r | _ => True end.
