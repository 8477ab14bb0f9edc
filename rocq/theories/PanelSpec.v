(** Geometry of the cubed-sphere node grid, for C20 and C21. *)
From Coq Require Import ZArith Bool.
From Verif Require Import PanelModel.
Local Open Scope Z_scope.

Definition edge (d : direction) : Prop := d = Right \/ d = Top \/ d = Left \/ d = Bottom.

(** The node at distance [d] (>= 1) outside / inside edge [e] of a panel with
    [n] x [n] nodes, at lateral position [k]. *)
Definition outer (n : Z) (e : direction) (d k : Z) : Z * Z :=
  match e with
  | Right => (n - 1 + d, k) | Left => (- d, k)
  | Top => (k, n - 1 + d) | Bottom => (k, - d) | _ => (0, 0) end.
Definition inner (n : Z) (e : direction) (d k : Z) : Z * Z :=
  match e with
  | Right => (n - d, k) | Left => (d - 1, k)
  | Top => (k, n - d) | Bottom => (k, d - 1) | _ => (0, 0) end.

(** The cube [-n,n]^3: position of the point (x, y) of panel [p], where x and
    y run over [-n, n].  Panel 0 faces +X, 1 +Y, 2 -X, 3 -Y, 4 +Z, 5 -Z. *)
Definition cube (n p x y : Z) : Z * Z * Z :=
  if p =? 0 then (n, x, y)
  else if p =? 1 then (- x, n, y)
  else if p =? 2 then (- n, - x, y)
  else if p =? 3 then (x, - n, y)
  else if p =? 4 then (- y, x, n)
  else (y, x, - n).
(** The point of edge [e] next to lateral node [k] (node k has coordinate
    2k+1-n). *)
Definition edge_point (n p : Z) (e : direction) (k : Z) : Z * Z * Z :=
  let t := 2 * k + 1 - n in
  match e with
  | Right => cube n p n t | Left => cube n p (- n) t
  | Top => cube n p t n | Bottom => cube n p t (- n) | _ => (0, 0, 0) end.

(** Whether two edges run along different coordinates, and whether crossing
    from [e] into [o] flips the direction of the perpendicular coordinate. *)
Definition vertical (e : direction) : bool := match e with Right | Left => true | _ => false end.
Definition high (e : direction) : bool := match e with Right | Top => true | _ => false end.
