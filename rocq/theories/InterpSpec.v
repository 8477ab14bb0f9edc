(** * Polynomials and their derivatives *)
From Coq Require Import Reals List.
From Verif Require Import QuadSpec.
Import ListNotations.
Local Open Scope R_scope.

Definition distinct (n : nat) (x : nat -> R) : Prop :=
  forall i j, (i < n)%nat -> (j < n)%nat -> i <> j -> x i <> x j.
(** g is the k-th derivative of f on the whole line *)
Fixpoint nth_derivative (k : nat) (f g : R -> R) : Prop :=
  match k with
  | O => forall t, g t = f t
  | S k' => exists f', (forall t, derivable_pt_lim f t (f' t)) /\ nth_derivative k' f' g
  end.
(** sum_i c_i p(x_i) *)
Definition weighted (c : list R) (x : nat -> R) (f : R -> R) : R :=
  fold_right Rplus 0 (map (fun i => nth i c 0 * f (x i)) (seq 0 (length c))).
(** the weights c recover the k-th derivative at s of every polynomial with at
    most n coefficients from its values at the nodes *)
Definition exact_derivative (k n : nat) (x : nat -> R) (s : R) (c : list R) : Prop :=
  length c = n /\
  forall p g, (length p <= n)%nat -> nth_derivative k (peval p) g -> weighted c x (peval p) = g s.
