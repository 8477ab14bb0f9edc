(** * What the vertical step of a column should do *)
From Coq Require Import Reals List.
From Verif Require Import ColModel ColSpec VertModel.
From Verif Require FluxModel.
Import ListNotations.
Local Open Scope R_scope.

(** the weights [om] of the levels integrate the difference operator: the sum of its
    values over the column is the difference of the values at both ends *)
Definition telescopes (K : nat) (om : nat -> R) (D : op) : Prop :=
  forall f, sum (fun k => om k * apply1 D f k) K = f K - f 0%nat.
(** a penalty redistributes: its sum over the column vanishes *)
Definition redistributes (K : nat) (om : nat -> R) (P : FluxModel.penalty) : Prop :=
  forall w f, sum (fun k => om k * FluxModel.pen_apply P w f (fun _ => 0) k) K = 0.
(** amount of a density with values f in the column *)
Definition content (K : nat) (om J f : nat -> R) : R := sum (fun k => om k * J k * f k) K.

(** row (c, k) of the matrix with the given additions times a vector *)
Definition row_dot (l : list entry) (h : vector) (c : comp) (k : nat) : R :=
  fold_right (fun e s => if (same (e_c1 e) c && (e_k1 e =? k)%nat)%bool then e_x e * h (e_c0 e) (e_k0 e) + s else s) 0 l.
(** d solves the linear system with right-hand side F *)
Definition solves_system (K : nat) (l : list entry) (F d : vector) : Prop :=
  forall c k, (k <= K)%nat -> row_dot l d c k = F c k.
Definition trow_dot (l : list tentry) (h : nat -> R) (k : nat) : R :=
  fold_right (fun e s => if (t_k1 e =? k)%nat then t_x e * h (t_k0 e) + s else s) 0 l.
Definition solves_tracer (K : nat) (l : list tentry) (F d : nat -> R) : Prop :=
  forall k, (k < K)%nat -> trow_dot l d k = F k.
(** the state X changed by t in the direction h *)
Definition along (X h : vector) (t : R) : vector := fun c k => X c k + t * h c k.
(** the column is at rest *)
Definition at_rest (K : nat) (Q : column) : Prop :=
  (forall k, u Q k = 0) /\ (forall k, v Q k = 0) /\ (forall k, start Q FW k = 0).
(** contravariant metric of a column, symmetric where the code relies on it *)
Definition symmetric (Q : column) : Prop := forall k, ca Q k 2%nat = cx Q k 0%nat /\ cb Q k 2%nat = cx Q k 1%nat.
(** entry (i, j) of the matrix with the given additions; unknowns in the order of VecFIx *)
Definition matrix (l : list entry) (i j : nat) : R :=
  fold_right (fun e s => if ((vec_ix (e_c1 e) (e_k1 e) =? i) && (vec_ix (e_c0 e) (e_k0 e) =? j))%bool%nat then e_x e + s else s) 0 l.
Definition tmatrix (l : list tentry) (i j : nat) : R :=
  fold_right (fun e s => if ((t_k1 e =? i) && (t_k0 e =? j))%bool%nat then t_x e + s else s) 0 l.
(** two horizontal nodes of a patch are the same point: equal, or last of an element and
    first of the next *)
Definition same_point (p n i i' : nat) : Prop :=
  i = i' \/ exists a, (1 <= a < n)%nat /\ ((i = a * p - 1 /\ i' = a * p) \/ (i' = a * p - 1 /\ i = a * p))%nat.
