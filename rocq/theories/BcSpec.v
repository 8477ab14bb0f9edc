(** Specification of lateral boundary conditions, for C108. *)
From Coq Require Import ZArith Bool Reals.
From Verif Require Import LayoutModel BcModel.
Local Open Scope Z_scope.

(** Sides 0..3: right, top, left, bottom.  Length of a side, the node number
    [t] of its outermost line, and the node next to it inside. *)
Definition length_of (A B d : Z) : Z := if (d =? 0) || (d =? 2) then B else A.
Definition outermost (A B d t : Z) : Z * Z :=
  if d =? 0 then (A - 1, t) else if d =? 1 then (t, B - 1) else if d =? 2 then (0, t) else (t, 0).
Definition next_inside (A B d t : Z) : Z * Z :=
  if d =? 0 then (A - 2, t) else if d =? 1 then (t, B - 2) else if d =? 2 then (1, t) else (t, 1).

Local Open Scope R_scope.
(** Velocity component at the wall, half way between the two nodes *)
Definition at_wall (s : state) (e : bool) (c : Z) (p q : Z * Z) (k : Z) : R :=
  (s e c (fst p) (snd p) k + s e c (fst q) (snd q) k) / 2.
(** No velocity at the wall *)
Definition no_slip (s : state) (e : bool) (p q : Z * Z) (k : Z) : Prop :=
  at_wall s e 0 p q k = 0 /\ at_wall s e 1 p q k = 0 /\ at_wall s e 3 p q k = 0.
(** No contravariant velocity across the wall, given the row of the
    contravariant metric normal to it *)
Definition no_flux (G : Z -> R) (s : state) (e : bool) (p q : Z * Z) (k : Z) : Prop :=
  G 0%Z * at_wall s e 0 p q k + G 1%Z * at_wall s e 1 p q k + G 2%Z * at_wall s e 3 p q k = 0.

Section Wall.
Context (GA GB : bool -> Z -> Z -> Z -> Z -> R).
(** Row of the metric for side [d] at a node *)
Definition normal_row (d : Z) (e : bool) (q : Z * Z) (k : Z) : Z -> R :=
  if ((d =? 0) || (d =? 2))%Z%bool then GA e (fst q) (snd q) k else GB e (fst q) (snd q) k.
(** Condition [code] holds at point [t] of side [d] *)
Definition condition (code : Z) (A B d : Z) (s : state) (e : bool) (t k : Z) : Prop :=
  let p := outermost A B d t in let q := next_inside A B d t in
  (code = 2%Z -> no_slip s e p q k) /\ (code = 1%Z -> no_flux (normal_row d e q k) s e p q k).
(** The metric is not degenerate. *)
Definition regular : Prop := forall e i j k, GA e i j k 0%Z <> 0 /\ GB e i j k 1%Z <> 0.
End Wall.

(** Vertical indices holding data *)
Definition vertical (interfaces_only : bool) (K : Z) (e : bool) (k : Z) : Prop :=
  if interfaces_only then e = false /\ (0 <= k < K)%Z
  else if e then (0 <= k <= K)%Z else (0 <= k < K)%Z.
(** The test deciding whether side [d] of the patch acts, and the test one
    would expect (the interior of the patch reaches the edge of the grid) *)
Definition reaches (np resA resB d : Z) (b : box) : Prop :=
  if (d =? 0)%Z then bA1 b = (np * resA)%Z else if (d =? 1)%Z then bB1 b = (np * resB)%Z
  else if (d =? 2)%Z then bA0 b = 0%Z else bB0 b = 0%Z.
Definition at_edge (np resA resB d : Z) (b : box) : Prop :=
  if (d =? 0)%Z then (bA1 b - bhalo b = np * resA)%Z else if (d =? 1)%Z then (bB1 b - bhalo b = np * resB)%Z
  else if (d =? 2)%Z then (bA0 b + bhalo b = 0)%Z else (bB0 b + bhalo b = 0)%Z.
(** A point of an acting side *)
Definition on_side (np resA resB : Z) (bc : Z -> Z) (b : box) (i j : Z) : Prop :=
  exists d, (0 <= d <= 3)%Z /\ bc d <> 0%Z /\ reaches np resA resB d b /\
    exists t, (i, j) = outermost (bA1 b - bA0 b) (bB1 b - bB0 b) d t.
