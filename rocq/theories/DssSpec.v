(** Specification of direct stiffness summation, for C25 and C26: which nodes
    share a point of the torus or of the cube, and the mean over them. *)
From Coq Require Import ZArith List Reals.
From Verif Require Import PanelModel PanelSpec LayoutModel.
Import ListNotations.
Local Open Scope Z_scope.

(** Number of the point at which node [i] lies on its axis: elements of [np]
    nodes, the last node of an element and the first of the next at the same
    point. *)
Definition gll_point (np i : Z) : Z := (i / np) * (np - 1) + i mod np.

(** Periodic plane of eA x eB elements *)
Definition torus_node (np eA eB : Z) (x : Z * Z) : Prop :=
  0 <= fst x < np * eA /\ 0 <= snd x < np * eB.
Definition torus_point (np eA eB : Z) (x : Z * Z) : Z * Z :=
  (gll_point np (fst x) mod (eA * (np - 1)), gll_point np (snd x) mod (eB * (np - 1))).

(** Cubed sphere of 6 x e x e elements: the point on the surface of the cube
    [-m, m]^3 with m = e (np - 1). *)
Definition cs_node (np e : Z) (x : Z * Z * Z) : Prop :=
  0 <= fst (fst x) <= 5 /\ 0 <= snd (fst x) < np * e /\ 0 <= snd x < np * e.
Definition cs_point (np e : Z) (x : Z * Z * Z) : Z * Z * Z :=
  let m := e * (np - 1) in
  cube m (fst (fst x)) (2 * gll_point np (snd (fst x)) - m) (2 * gll_point np (snd x) - m).

(** [v] is the mean of [U] over the (finitely many) nodes satisfying [P]. *)
Definition rsum {A} (U : A -> R) (l : list A) : R := fold_right (fun n s => (U n + s)%R) 0%R l.
Definition mean_over {A} (P : A -> Prop) (U : A -> R) (v : R) : Prop :=
  exists l, NoDup l /\ (forall n, In n l <-> P n) /\ l <> [] /\ v = (rsum U l / INR (length l))%R.

(** Halo contents after the exchange.  Local node (i, j) of the patch, in its
    interior or in the first row or column around it, holds the value of the
    field at its own place on the periodic plane ... *)
Definition ring (b : box) (i j : Z) : Prop :=
  bhalo b - 1 <= i <= bA1 b - bA0 b - bhalo b /\ bhalo b - 1 <= j <= bB1 b - bB0 b - bhalo b.
Definition holds_torus {V} (np eA eB : Z) (U : Z * Z -> V) (b : box) (u : Z -> Z -> V) : Prop :=
  forall i j, ring b i j -> u i j = U ((i + bA0 b) mod (np * eA), (j + bB0 b) mod (np * eB)).
(** ... or of the node that RelativeCoord assigns to it on the cubed sphere;
    nothing is assumed where there is none. *)
Definition holds_cs {V} (n : Z) (U : Z * Z * Z -> V) (b : box) (u : Z -> Z -> V) : Prop :=
  forall i j r, ring b i j -> relative_coord n (bpanel b) (i + bA0 b) (j + bB0 b) = Some r ->
    rp r <> -1 -> u i j = U (rp r, ri r, rj r).

(** A non-empty patch of whole elements inside the plane or inside a panel *)
Definition patch_of (np nA nB : Z) (b : box) : Prop :=
  1 <= bhalo b /\ (np | bA0 b + bhalo b) /\ (np | bA1 b - bhalo b) /\ (np | bB0 b + bhalo b) /\ (np | bB1 b - bhalo b) /\
  0 <= bA0 b + bhalo b /\ bA0 b + bhalo b < bA1 b - bhalo b /\ bA1 b - bhalo b <= nA /\
  0 <= bB0 b + bhalo b /\ bB0 b + bhalo b < bB1 b - bhalo b /\ bB1 b - bhalo b <= nB.
(** Local interior nodes, and their place in the panel *)
Definition inner_node (b : box) (i j : Z) : Prop :=
  bhalo b <= i < bA1 b - bA0 b - bhalo b /\ bhalo b <= j < bB1 b - bB0 b - bhalo b.
Definition place (b : box) (i j : Z) : Z * Z := (i + bA0 b, j + bB0 b).
