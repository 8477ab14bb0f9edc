(** * Grid spacing
    src/atm/GridSpacing.cpp.  int is Z, double is R; [Outside] is an access
    outside the point or weight array. *)
From Coq Require Import ZArith Reals Bool List.
From Verif Require Import QuadModel.
Import ListNotations.
Local Open Scope Z_scope.

Inductive res := Value (x : R) | Threw | Outside.
Definition at_ (l : list R) (i : Z) : option R :=
  if (0 <=? i) && (i <? Z.of_nat (length l)) then nth_error l (Z.to_nat i) else None.

(** GridSpacingUniform, GridSpacing.cpp:46-68 *)
Definition uniform_node (delta zero : R) (ix : Z) : res := Value (zero + (IZR ix + 1 / 2) * delta)%R.
Definition uniform_edge (delta zero : R) (ix : Z) : res := Value (zero + IZR ix * delta)%R.
Definition uniform_area (delta : R) (ix : Z) : res := Value delta.

(** m_nOrder with the points and weights of the rule *)
Record spacing := Spacing { delta : R; zero : R; order : Z; pts : list R; wts : list R }.

(** the body shared by the six GetNode / GetEdge functions below, which differ
    in the divisor [per] and the point array *)
Definition element_node (s : spacing) (per : Z) (g : list R) (ix : Z) : res :=
  let el := Z.quot ix per in
  let sub := Z.rem ix per in
  let '(el, sub) := if ix <? 0 then (el - 1, order s + sub) else (el, sub) in
  if order s <=? sub then Threw
  else match at_ g sub with
       | Some x => Value (zero s + delta s * IZR el + x)%R
       | None => Outside
       end.

(** GridSpacingGaussLobatto: constructor 73-89, GetNode and GetEdge 93-130,
    areas 134-154 *)
Definition make (r : Z -> rule) (min : Z) (d z : R) (n : Z) : option spacing :=
  if n <? min then None
  else match get_points (r n) 0%R d with Some (g, w) => Some (Spacing d z n g w) | None => None end.
Definition make_lobatto : R -> R -> Z -> option spacing := make lobatto_table 2.
Definition lobatto_node (s : spacing) (ix : Z) : res := element_node s (order s - 1) (pts s) ix.
Definition lobatto_area (s : spacing) (ix : Z) : res :=
  let sub := Z.rem ix (order s - 1) in
  match at_ (wts s) (if sub =? 0 then 0 else sub) with
  | Some w => Value (if sub =? 0 then 2 * w else w)%R
  | None => Outside
  end.

(** GridSpacingGaussLobattoRepeated: constructor 160-176, GetNode and GetEdge
    180-217, areas 221-233 *)
Definition make_repeated : R -> R -> Z -> option spacing := make lobatto_table 2.
Definition repeated_node (s : spacing) (ix : Z) : res := element_node s (order s) (pts s) ix.
Definition repeated_area (s : spacing) (ix : Z) : res :=
  match at_ (wts s) (Z.rem ix (order s)) with Some w => Value w | None => Outside end.

(** GridSpacingMixedGaussLobatto: constructor 239-259, GetNode 263-280, GetEdge
    284-301, areas 305-321; [ls] holds the n+1 Gauss-Lobatto points *)
Definition make_mixed (d z : R) (n : Z) : option (spacing * spacing) :=
  if n <? 1 then None
  else match make lobatto_table 2 d z (n + 1), make gauss_table 1 d z n with
       | Some l, Some g => Some (g, Spacing d z n (pts l) (wts l))
       | _, _ => None
       end.
Definition mixed_node (s : spacing * spacing) (ix : Z) : res := element_node (fst s) (order (fst s)) (pts (fst s)) ix.
Definition mixed_edge (s : spacing * spacing) (ix : Z) : res := element_node (snd s) (order (snd s)) (pts (snd s)) ix.
Definition mixed_node_area (s : spacing * spacing) (ix : Z) : res := repeated_area (fst s) ix.
Definition mixed_edge_area (s : spacing * spacing) (ix : Z) : res :=
  let sub := Z.rem ix (order (snd s)) in
  match at_ (wts (snd s)) sub with
  | Some w => Value (if sub =? 0 then 2 * w else w)%R
  | None => Outside
  end.
