(** * What the Legendre polynomials are
    and what their roots are used for. *)
From Coq Require Import Reals List.
From Verif Require Import QuadSpec.
Import ListNotations.
Local Open Scope R_scope.

(** [v] is the integral of [f] over [-1, 1] *)
Definition integral (f : R -> R) (v : R) : Prop :=
  exists F, (forall x, derivable_pt_lim F x (f x)) /\ v = F 1 - F (-1).
(** the polynomial of degree at most [n] that is 1 at 1 and orthogonal to every
    polynomial of lower degree *)
Definition legendre (n : nat) (c : list R) : Prop :=
  (length c <= S n)%nat /\ peval c 1 = 1 /\
  forall q, (length q <= n)%nat -> integral (fun x => peval c x * peval q x) 0.

(** ascending; symmetric about zero *)
Fixpoint ascending (l : list R) : Prop :=
  match l with x :: ((y :: _) as r) => x <= y /\ ascending r | _ => True end.
Definition symmetric (l : list R) : Prop := rev l = map Ropp l.
